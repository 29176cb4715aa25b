(** Property theorems about clients that look up the nodes they know. *)
From Coq Require Import Permutation ZArith.
From Verif Require Import Base MainTree Spec Filters FTree SpecApi SpecView SpecViewing SpecFrame Gtk SpecGtk Widget Sort SpecSort SpecHealthy SortFacts SortAny
  Witness ApiWitness ViewWitness ViewCases GtkWitness SortCases SortAnyCases.

(** C69. A client that looks up all nodes it knows, whenever a node is announced as
    added or modified, finds them in the tree of that moment. *)
Theorem C69_known : forall ord, (forall k l, Permutation (ord k l) l) ->
  forall x cs c, attended ord x cs -> supported x c -> snd (client_call ord attentive c x cs) = Ok tt.
Proof. exact attended_ok. Qed.
Print Assumptions C69_known.
Example C69_known_example : attended keep (fst acon) (snd acon) /\ supported (fst acon) (VTree (DelNode "b" true)) /\
  snd acon = [["a"]; ["a"; "b"]; ["a"; "c"]; ["a"; "b"; "d"]; ["a"; "c"; "d"]] /\
  client_call keep attentive (VTree (DelNode "b" true)) (fst acon) (snd acon) = (adel, Ok tt) /\
  news (snd (fst acon)) (snd (fst adel)) = adel_news /\ snd adel = [["a"]; ["a"; "c"]].
Proof. exact case_attend. Qed.

(** C69. It also finds them when it is connected, and between calls. *)
Theorem C69_connect : forall ord, (forall k l, Permutation (ord k l) l) ->
  forall x, viewing ord x -> snd (client_connect attentive x []) = Ok tt.
Proof. exact attend_connect. Qed.
Print Assumptions C69_connect.
Example C69_connect_example : viewing keep vshow /\ snd (client_connect attentive vshow []) = Ok tt /\
  news (snd vshow) (snd (fst acon)) <> [].
Proof. exact case_connects. Qed.

Theorem C69_between : forall ord, (forall k l, Permutation (ord k l) l) ->
  forall t b s cs, attended ord (t, b, s) cs -> (forall q, In q cs <-> view_path s q) /\ look_up t cs = Ok tt.
Proof. exact attended_paths. Qed.
Print Assumptions C69_between.
Example C69_between_example : attended keep (fst (fst (fst acon)), snd (fst (fst acon)), snd (fst acon)) (snd acon) /\ view_path (snd (fst acon)) ["a"; "c"; "d"].
Proof. exact case_attended. Qed.

(** C70. Sorting does not raise exceptions, whatever rows of a level the store compares
    and whatever addresses rows get: as long as no call raised an exception, a store
    that sorts does what a store that does not sort does. *)
Theorem C70_sorts : forall ord pf, (forall k l, Permutation (ord k l) l) -> faithful pf ->
  forall func order x g c, healthy ord pf x g -> supported x c ->
  client_call ord (sort_signal func order pf) c x g = widget_call ord pf c x g.
Proof. exact healthy_sorts. Qed.
Print Assumptions C70_sorts.
Example C70_sorts_example : faithful lowest /\ healthy keep lowest (fst gend) (snd gend) /\ supported (fst gend) (VTree (put "W" 3 (Some "A"))) /\
  client_call keep (sort_signal (Some by_data) true lowest) (VTree (put "W" 3 (Some "A"))) (fst gend) (snd gend) = (gput, Ok tt) /\
  rows (snd gput) = grows ++ [grow_w] /\ sort_func (Some by_data) true (fst (fst (fst gput))) grow_x grow_w = Ok (-2)%Z /\ ~ view_path (snd (fst gput)) ["A"; "X"].
Proof. exact case_any_sorts. Qed.
Example C70_sorts_example_raising : faithful lowest /\ healthy keep lowest (fst gend) (snd gend) /\ supported (fst gend) (VTree (DelNode "X" false)) /\
  client_call keep (sort_signal (Some by_data) true lowest) (VTree (DelNode "X" false)) (fst gend) (snd gend) = (gfail, Err PyException).
Proof. exact case_any_raises. Qed.

Theorem C70_connect : forall ord pf, (forall k l, Permutation (ord k l) l) -> faithful pf ->
  forall func order x, viewing ord x -> client_connect (sort_signal func order pf) x new_gtk = connect pf x.
Proof. exact connect_sorts_any. Qed.
Print Assumptions C70_connect.
Example C70_connect_example : faithful lowest /\ viewing keep vshow /\
  client_connect (sort_signal (Some by_data) true lowest) vshow new_gtk = connect lowest vshow /\
  map (fun r => (r_addr r, r_id r)) (rows (snd (fst (connect lowest vshow)))) = [(0, "a"); (1, "b"); (2, "c"); (3, "d"); (4, "d")].
Proof. exact case_any_connects. Qed.

(** C70. With an allocator that never gives out an address again, no call raises
    exceptions, those of the Gtk model included. *)
Theorem C70_sound : forall ord pf, (forall k l, Permutation (ord k l) l) -> faithful pf -> never_reuses pf ->
  forall func order x g c, watching ord pf x g -> supported x c ->
  healthy ord pf x g /\ snd (client_call ord (sort_signal func order pf) c x g) = Ok tt.
Proof. exact watching_sorts_ok. Qed.
Print Assumptions C70_sound.
Example C70_sound_example : faithful counting /\ never_reuses counting /\ watching keep counting (fst wend) (snd wend) /\
  supported (fst wend) (VTree (NewRelationship "a" "z")) /\
  client_call keep (sort_signal (Some by_data) true counting) (VTree (NewRelationship "a" "z")) (fst wend) (snd wend) = (wpair, Ok tt) /\
  sort_func (Some by_data) true (fst (fst (fst wpair))) (mkRow 6 (Some 0) "c" (Some 5)) (mkRow 56 (Some 0) "z" (Some 3)) = Ok 2%Z /\
  rows (snd wpair) = [mkRow 6 (Some 0) "c" (Some 5); mkRow 56 (Some 0) "z" (Some 3); mkRow 18 (Some 10) "z" (Some 3); mkRow 10 (Some 6) "d" (Some 2); mkRow 0 None "a" (Some 1)].
Proof. exact case_sorts. Qed.

(** C70. Between calls two rows with ids are compared by the function of the
    application, given the current data of their nodes. *)
Theorem C70_compares : forall ord pf, (forall k l, Permutation (ord k l) l) -> faithful pf ->
  forall func order t b s g r r', healthy ord pf (t, b, s) g -> In r (rows g) -> In r' (rows g) -> r_id r <> "" -> r_id r' <> "" ->
  exists d d', data_at t (r_id r) = Some d /\ data_at t (r_id r') = Some d' /\
    sort_func func order t r r' = Ok (match func with Some f => f d d' order | None => (-1)%Z end).
Proof. exact healthy_compares. Qed.
Print Assumptions C70_compares.
Example C70_compares_example : faithful lowest /\ healthy keep lowest (fst (fst (fst gend)), snd (fst (fst gend)), snd (fst gend)) (snd gend) /\
  In grow_x (rows (snd gend)) /\ In (mkRow 1 None "Z" (Some 1)) (rows (snd gend)) /\
  sort_func (Some by_data) true (fst (fst (fst gend))) grow_x (mkRow 1 None "Z" (Some 1)) = Ok 0%Z.
Proof. exact case_any_compares. Qed.

(** C70. A row that has no id yet comes before every other one: the function of the
    application is not called. *)
Theorem C70_unnamed : forall func order t r r', r_id r = "" \/ r_id r' = "" -> sort_func func order t r r' = Ok (-1)%Z.
Proof. exact unnamed_rows. Qed.
Print Assumptions C70_unnamed.
Example C70_unnamed_example : r_id (mkRow 7 None "" None) = "" /\ sort_func (Some by_data) true (fst (fst (fst gend))) grow_x grow_x = Ok 0%Z.
Proof. exact case_unnamed. Qed.

(** C70. Between calls the separator function finds the node of every row. *)
Theorem C70_separates : forall ord pf, (forall k l, Permutation (ord k l) l) -> faithful pf ->
  forall sep t b s g r, healthy ord pf (t, b, s) g -> In r (rows g) ->
  exists d, data_at t (r_id r) = Some d /\ separator_func sep t r = Ok (match sep with Some f => f d | None => false end).
Proof. exact separates_any. Qed.
Print Assumptions C70_separates.
Example C70_separates_example : faithful lowest /\ healthy keep lowest (fst (fst (fst gend)), snd (fst (fst gend)), snd (fst gend)) (snd gend) /\
  In grow_x (rows (snd gend)) /\ separator_func (Some (Nat.eqb 1)) (fst (fst (fst gend))) grow_x = Ok true.
Proof. exact case_any_separates. Qed.

(** C70. Comparing a row whose node is gone with a row of its level would raise. *)
Theorem C70_raises : forall func order f T g a b, func = Some f -> In a (rows g) -> In b (rows g) -> r_parent a = r_parent b -> r_addr a <> r_addr b ->
  r_id a <> "" -> r_id b <> "" -> has_node T (r_id a) = false -> compare_rows func order T g <> Ok tt.
Proof. exact compare_raises. Qed.
Print Assumptions C70_raises.
Example C70_raises_example :
  In (mkRow 0 None "a" (Some 1)) (rows gone_store) /\ In (mkRow 1 None "gone" (Some 2)) (rows gone_store) /\
  has_node (fst (fst vshow)) "a" = true /\ has_node (fst (fst vshow)) "gone" = false /\
  compare_rows (Some by_data) true (fst (fst vshow)) gone_store = Err ValueError.
Proof. exact case_raises. Qed.
