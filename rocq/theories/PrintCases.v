(** Concrete cases of print_tree of the store. *)
From Coq Require Import Permutation.
From Verif Require Import Base BaseFacts MainTree Spec Filters FTree SpecApi SpecView SpecViewing Gtk SpecGtk StorePrint SpecPrint PrintStore
  GtkView Witness ApiWitness ViewWitness ViewCases GtkWitness SortCases.

Lemma watching_print : forall ord pf, (forall k l, Permutation (ord k l) l) -> faithful pf -> never_reuses pf ->
  forall t b s g, watching ord pf (t, b, s) g ->
  exists qs, NoDup qs /\ (forall q, In q qs <-> view_path s q) /\ branches [] qs /\
    store_print g = Ok (map (fun q => arrows (pred (length q)) (last q "")) qs).
Proof. intros ord pf HO AL NR t b s g W. apply print_shown. apply (watching_shows ord pf HO AL NR t b s g W). Qed.

Lemma forest_print : forall g, forest (rows g) -> exists ls, store_print g = Ok (map (fun z => arrows (fst z) (r_id (snd z))) ls) /\
  depth_first (rows g) 0 (children_of (rows g) None) ls /\ Permutation (map snd ls) (rows g) /\
  forall d r, In (d, r) ls -> exists l, at_path (rows g) r l /\ length l = S d.
Proof. exact print_spec. Qed.

Definition shelf : gtk :=
  mkGtk [mkRow 7 (Some 4) "z" None; mkRow 2 None "a" None; mkRow 5 (Some 2) "c" None; mkRow 4 (Some 2) "b" None; mkRow 9 None "e" None; mkRow 1 (Some 4) "y" None] 9 [] [].
Lemma shelf_forest : forest (rows shelf).
Proof.
  split; [simpl; repeat constructor; simpl; intuition discriminate|].
  assert (A : at_path (rows shelf) (mkRow 2 None "a" None) ["a"]) by (apply at_top; simpl; tauto).
  assert (B : at_path (rows shelf) (mkRow 4 (Some 2) "b" None) ["a"; "b"]) by (apply (at_below _ (mkRow 4 (Some 2) "b" None) _ ["a"]) with (2 := eq_refl) (3 := A); simpl; tauto).
  intros r Hr. simpl in Hr. destruct Hr as [<-|[<-|[<-|[<-|[<-|[<-|[]]]]]]].
  - exists ["a"; "b"; "z"]. apply (at_below (rows shelf) (mkRow 7 (Some 4) "z" None) _ ["a"; "b"]) with (2 := eq_refl) (3 := B); simpl; tauto.
  - eauto.
  - exists ["a"; "c"]. apply (at_below (rows shelf) (mkRow 5 (Some 2) "c" None) _ ["a"]) with (2 := eq_refl) (3 := A); simpl; tauto.
  - eauto.
  - exists ["e"]. apply (at_top _ (mkRow 9 None "e" None)); simpl; tauto.
  - exists ["a"; "b"; "y"]. apply (at_below (rows shelf) (mkRow 1 (Some 4) "y" None) _ ["a"; "b"]) with (2 := eq_refl) (3 := B); simpl; tauto.
Qed.
Lemma case_shelf : forest (rows shelf) /\ store_print shelf = Ok [" a"; "=> c"; "=> b"; "=>=> z"; "=>=> y"; " e"].
Proof. split; [exact shelf_forest|reflexivity]. Qed.

Lemma case_print : faithful counting /\ never_reuses counting /\
  watching keep counting (fst (fst (fst sconn)), snd (fst (fst sconn)), snd (fst sconn)) (snd sconn) /\
  store_print (snd sconn) = Ok [" a"; "=> c"; "=>=> d"; "=> b"; "=>=> d"].
Proof.
  split; [exact counting_fresh|]. split; [exact counting_new|]. split; [|vm_compute; reflexivity].
  apply watching_parts. apply (watch_start _ _ vshow (fst sconn) (snd sconn) (snd (connect counting vshow))); [exact vshow_viewing|].
  vm_compute. reflexivity.
Qed.

Lemma signals_print : forall pf l g o, faithful pf -> on_heard pf l new_gtk = (g, o) ->
  exists ls, store_print g = Ok (map (fun z => arrows (fst z) (r_id (snd z))) ls) /\
  depth_first (rows g) 0 (children_of (rows g) None) ls /\ Permutation (map snd ls) (rows g) /\
  forall d r, In (d, r) ls -> exists l, at_path (rows g) r l /\ length l = S d.
Proof. exact heard_print. Qed.
Lemma case_signals_print : faithful lowest /\ on_heard lowest gsignals new_gtk = (fst (on_heard lowest gsignals new_gtk), Ok tt) /\
  store_print (fst (on_heard lowest gsignals new_gtk)) = Ok [" A"; " B"; "=> X"; "=>=> Y"].
Proof. split; [exact lowest_fresh|split; vm_compute; reflexivity]. Qed.

Lemma reused_print : exists pf t b s g, faithful pf /\ watching keep pf (t, b, s) g /\
  store_print g = Ok [" A"; "=> X"; " B"; " Z"] /\ view_path s ["B"; "X"] /\ ~ view_path s ["A"; "X"].
Proof.
  exists lowest, (fst (fst (fst gend))), (snd (fst (fst gend))), (snd (fst gend)), (snd gend).
  split; [exact lowest_fresh|]. split; [exact (watching_parts _ _ _ gend_watching)|]. split; [vm_compute; reflexivity|]. split.
  - split; [discriminate|]. vm_compute. auto 10.
  - intros [_ H]. vm_compute in H. intuition discriminate.
Qed.
