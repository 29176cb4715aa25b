(** Property theorems about print_tree of the store. *)
From Coq Require Import Permutation.
From Verif Require Import Base MainTree Spec Filters FTree SpecApi SpecView SpecViewing Gtk SpecGtk StorePrint SpecPrint
  Witness ApiWitness ViewWitness ViewCases GtkWitness SortCases PrintCases.

(** C74. print_tree of a store whose rows form a forest terminates. It prints one line
    for each row, depth first, in the order of the store, with as many arrows as the
    row has rows above it. *)
Theorem C74_lists : forall g, forest (rows g) -> exists ls, store_print g = Ok (map (fun z => arrows (fst z) (r_id (snd z))) ls) /\
  depth_first (rows g) 0 (children_of (rows g) None) ls /\ Permutation (map snd ls) (rows g) /\
  forall d r, In (d, r) ls -> exists l, at_path (rows g) r l /\ length l = S d.
Proof. exact forest_print. Qed.
Print Assumptions C74_lists.
Example C74_lists_example : forest (rows shelf) /\ store_print shelf = Ok [" a"; "=> c"; "=> b"; "=>=> z"; "=>=> y"; " e"].
Proof. exact case_shelf. Qed.

(** C74. Whatever the allocator gives out and whatever signals arrived, raising or not,
    the rows of the store form a forest: print_tree terminates and lists every row once. *)
Theorem C74_signals : forall pf l g o, faithful pf -> on_heard pf l new_gtk = (g, o) ->
  exists ls, store_print g = Ok (map (fun z => arrows (fst z) (r_id (snd z))) ls) /\
  depth_first (rows g) 0 (children_of (rows g) None) ls /\ Permutation (map snd ls) (rows g) /\
  forall d r, In (d, r) ls -> exists l, at_path (rows g) r l /\ length l = S d.
Proof. exact signals_print. Qed.
Print Assumptions C74_signals.
Example C74_signals_example : faithful lowest /\ on_heard lowest gsignals new_gtk = (fst (on_heard lowest gsignals new_gtk), Ok tt) /\
  store_print (fst (on_heard lowest gsignals new_gtk)) = Ok [" A"; " B"; "=> X"; "=>=> Y"].
Proof. exact case_signals_print. Qed.

(** C74. The store of a connected widget prints one line for each path of the view,
    depth first. What is missing: allocators that give the address of a removed row
    to a new one. *)
Theorem C74_view_partial : forall ord pf, (forall k l, Permutation (ord k l) l) -> faithful pf -> never_reuses pf ->
  forall t b s g, watching ord pf (t, b, s) g ->
  exists qs, NoDup qs /\ (forall q, In q qs <-> view_path s q) /\ branches [] qs /\
    store_print g = Ok (map (fun q => arrows (pred (length q)) (last q "")) qs).
Proof. exact watching_print. Qed.
Print Assumptions C74_view_partial.
Example C74_view_example : faithful counting /\ never_reuses counting /\
  watching keep counting (fst (fst (fst sconn)), snd (fst (fst sconn)), snd (fst sconn)) (snd sconn) /\
  store_print (snd sconn) = Ok [" a"; "=> c"; "=>=> d"; "=> b"; "=>=> d"].
Proof. exact case_print. Qed.

(** C74. It fails when addresses are given out again: X is printed below A, where the
    view does not have it. *)
Theorem C74_reuse_refuted : exists pf t b s g, faithful pf /\ watching keep pf (t, b, s) g /\
  store_print g = Ok [" A"; "=> X"; " B"; " Z"] /\ view_path s ["B"; "X"] /\ ~ view_path s ["A"; "X"].
Proof. exact reused_print. Qed.
Print Assumptions C74_reuse_refuted.
