(** Properties of rows that stay open. *)
From Coq Require Import Permutation.
From Verif Require Import Base MainTree Spec Filters FTree SpecApi SpecView SpecViewing Gtk SpecGtk Widget SpecWidget SpecLone SpecExpand SpecExpandLone SpecSteady
  Witness ApiWitness ViewWitness GtkWitness WidgetWitness ExpandCases CloseCases LoneCases LoneWidget LoneWidgetCases WidgetExpandLone ExpandLoneCases LastCases WidgetSteady SteadyCases.

(** C92. An open row with rows below it stays at its path and open, whatever happens,
    until a row directly below it is removed, collapse_node is called for a node on its
    path, or the user closes it. *)
Theorem C92_steady : forall ord pf, (forall k l, Permutation (ord k l) l) -> faithful pf -> never_reuses pf ->
  forall x p r q x' p', handled ord pf x p -> at_path (rows (store p)) r q -> is_open p r -> has_below (rows (store p)) r -> steady ord pf q (r_addr r) x p x' p' ->
  exists r', at_path (rows (store p')) r' q /\ r_addr r' = r_addr r /\ is_open p' r' /\ has_below (rows (store p')) r'.
Proof. exact use_steady. Qed.
Print Assumptions C92_steady.
Example C92_steady_example : faithful counting /\ never_reuses counting /\ handled keep counting (parts kopen) (snd kopen) /\
  at_path (rows (store (snd kopen))) row_e ["e"] /\ is_open (snd kopen) row_e /\ has_below (rows (store (snd kopen))) row_e /\
  steady keep counting ["e"] (r_addr row_e) (parts kopen) (snd kopen) (parts send) (snd send) /\
  map r_id (rows (store (snd send))) = ["e"; "z"; "f"; "k"] /\ expanded (snd send) = [12].
Proof. exact case_steady. Qed.

(** C92. Likewise with any allocator while no node has two parents. *)
Theorem C92_single_steady : forall ord pf, (forall k l, Permutation (ord k l) l) -> faithful pf ->
  forall x p r q x' p', handled_single ord pf x p -> at_path (rows (store p)) r q -> is_open p r -> has_below (rows (store p)) r -> steady_single ord pf q (r_addr r) x p x' p' ->
  exists r', at_path (rows (store p')) r' q /\ r_addr r' = r_addr r /\ is_open p' r' /\ has_below (rows (store p')) r'.
Proof. exact use_steady_single. Qed.
Print Assumptions C92_single_steady.
Example C92_single_steady_example : faithful lowest /\ handled_single keep lowest (parts lopen) (snd lopen) /\
  at_path (rows (store (snd lopen))) row_A ["A"] /\ is_open (snd lopen) row_A /\ has_below (rows (store (snd lopen))) row_A /\
  steady_single keep lowest ["A"] (r_addr row_A) (parts lopen) (snd lopen) (parts lsend) (snd lsend) /\
  map (fun r => (r_addr r, r_id r)) (rows (store (snd lsend))) = [(0, "A"); (2, "Y"); (5, "V"); (1, "X"); (3, "z"); (4, "k")] /\ expanded (snd lsend) = [0].
Proof. exact lcase_steady. Qed.

(** C92. All the while the rows directly below it, also new ones, can be seen as soon as
    the row itself can: the row above them is the open one. *)
Theorem C92_sight : forall ord pf, (forall k l, Permutation (ord k l) l) -> faithful pf -> never_reuses pf ->
  forall x p r q x' p', handled ord pf x p -> at_path (rows (store p)) r q -> is_open p r -> has_below (rows (store p)) r -> steady ord pf q (r_addr r) x p x' p' ->
  forall r' n, at_path (rows (store p')) r' (q ++ [n]) -> r_parent r' = Some (r_addr r) /\ in_sight p' r'.
Proof. exact use_sight. Qed.
Print Assumptions C92_sight.
Example C92_sight_example : handled keep counting (parts kopen) (snd kopen) /\ at_path (rows (store (snd kopen))) row_e ["e"] /\ is_open (snd kopen) row_e /\ has_below (rows (store (snd kopen))) row_e /\
  steady keep counting ["e"] (r_addr row_e) (parts kopen) (snd kopen) (parts send) (snd send) /\
  at_path (rows (store (snd send))) row_k (["e"] ++ ["k"]) /\ ~ In row_k (rows (store (snd kopen))) /\ in_sight (snd send) row_k.
Proof. exact case_sight. Qed.

(** C92. Likewise with any allocator while no node has two parents. *)
Theorem C92_single_sight : forall ord pf, (forall k l, Permutation (ord k l) l) -> faithful pf ->
  forall x p r q x' p', handled_single ord pf x p -> at_path (rows (store p)) r q -> is_open p r -> has_below (rows (store p)) r -> steady_single ord pf q (r_addr r) x p x' p' ->
  forall r' n, at_path (rows (store p')) r' (q ++ [n]) -> r_parent r' = Some (r_addr r) /\ in_sight p' r'.
Proof. exact use_sight_single. Qed.
Print Assumptions C92_single_sight.
Example C92_single_sight_example : handled_single keep lowest (parts lopen) (snd lopen) /\ at_path (rows (store (snd lopen))) row_A ["A"] /\ is_open (snd lopen) row_A /\ has_below (rows (store (snd lopen))) row_A /\
  steady_single keep lowest ["A"] (r_addr row_A) (parts lopen) (snd lopen) (parts lsend) (snd lsend) /\
  at_path (rows (store (snd lsend))) lrow_k (["A"] ++ ["k"]) /\ In (r_addr lrow_k) (map r_addr (rows (store (snd lopen)))) /\ in_sight (snd lsend) lrow_k.
Proof. exact lcase_sight. Qed.
