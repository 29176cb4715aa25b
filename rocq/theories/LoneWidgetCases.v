(** Concrete widgets on trees in which no node has two parents, with addresses that are used again. *)
From Coq Require Import Permutation.
From Verif Require Import Base BaseFacts MainTree Spec Filters FTree SpecApi SpecView SpecViewing Gtk SpecGtk Widget SpecWidget SpecLone
  FtTree FtMind Witness ApiWitness ViewWitness GtkWitness GtkFacts WidgetPlaces WidgetWitness LoneCases LoneWidget.

Fixpoint lone_stepsb (pf : platform) (l : list ustep) (w : viewed * panel) : bool :=
  match l with [] => true | u :: r => step_okb u (fst w) && loneb (base_tree (fst (use_step pf u w))) && lone_stepsb pf r (use_step pf u w) end.
Lemma usingle_steps : forall pf start l asked w, in_use_single keep pf start asked (fst w) (snd w) -> lone_stepsb pf l w = true ->
  in_use_single keep pf start (asked_for l asked) (fst (use_steps pf l w)) (snd (use_steps pf l w)).
Proof.
  intros pf start l. induction l as [|u l IH]; intros asked w U H; cbn [use_steps asked_for lone_stepsb] in *; auto.
  apply andb_true_iff in H. destruct H as [H H2]. apply andb_true_iff in H. destruct H as [H1 H3]. apply one_parentb in H3.
  destruct w as [[[t b] s] p]. destruct u as [c|n|]; cbn [step_okb fst snd] in *.
  - apply IH; auto. apply andb_true_iff in H1. destruct H1 as [H1 H4]. apply supportedb_ok in H1.
    apply (usingle_call keep pf start asked (t, b, s) p c _ _ (snd (panel_call pf keep c (t, b, s) p))); auto.
    + intros n a ->. apply Nat.leb_le. auto.
    + cbn [use_step]. destruct (panel_call pf keep c (t, b, s) p) as [[x1 p1] r1]. reflexivity.
  - apply IH; auto. cbn [use_step fst snd]. destruct (collapse_node false [n] s p) as [[s' p'] r] eqn:E.
    apply (usingle_collapse keep pf start asked t b s p [] n s' p' r); auto. bools; auto.
  - apply IH; auto. cbn [use_step fst snd]. destruct (run_idle s p) as [[s' p'] r] eqn:E. apply (usingle_idle keep pf start asked t b s p s' p' r); auto.
Qed.
Lemma usingle_built : forall pf (start : viewed -> Prop) x, viewing keep x -> one_parent (base_tree x) -> start x -> (forall n, waiting (snd x) n = []) ->
  in_use_single keep pf start [] (fst (built pf x)) (snd (built pf x)).
Proof.
  intros pf start x V L S W. apply (usingle_start keep pf start x _ _ (snd (build_panel pf x))); auto.
  - intros n a H. rewrite W in H. destruct H.
  - unfold built. destruct (build_panel pf x) as [[y p] r]. reflexivity.
Qed.
Lemma usingle_parts : forall pf start asked x p, in_use_single keep pf start asked x p -> in_use_single keep pf start asked (fst (fst x), snd (fst x), snd x) p.
Proof. intros pf start asked [[t b] s] p H. exact H. Qed.
Lemma usingle_more : forall pf (start start' : viewed -> Prop) asked x p, (forall x, start x -> start' x) -> in_use_single keep pf start asked x p -> in_use_single keep pf start' asked x p.
Proof.
  intros pf start start' asked x p S H. induction H; [eapply usingle_start|eapply usingle_call|eapply usingle_sort|eapply usingle_collapse|eapply usingle_idle]; eauto.
Qed.

(** X is deleted and added again: its row gets the address it had before. *)
Definition lsteps : list ustep :=
  [UCall (VTree (put "A" 5 None)); UCall (VTree (put "X" 4 (Some "A"))); UFold "B"; UFold "'Y'"; UCall (VTree (put "Y" 3 (Some "A")));
   UCall (VTree (put "B" 2 None)); UCall (VTree (put "U" 1 (Some "X"))); UCall (VTree (put "V" 1 (Some "Y"))); UCall (VTree (put "W" 0 (Some "B")));
   UCall (VTree (DelNode "X" false)); UCall (VTree (put "X" 7 (Some "A"))); UCall (VTree (SetParent "U" (Some "X"))); UIdle; UIdle].
Definition lend : viewed * panel := use_steps lowest lsteps (built lowest eview).
Lemma eview_lone : one_parent (base_tree eview).
Proof. apply one_parentb. vm_compute. reflexivity. Qed.
Lemma lend_use : in_use_single keep lowest no_nesting ["Y"; "B"] (fst lend) (snd lend).
Proof.
  apply (usingle_steps lowest no_nesting lsteps []); [|vm_compute; reflexivity].
  apply usingle_built; [exact eview_viewing|exact eview_lone|exact eview_flat|]. intros n. reflexivity.
Qed.
Lemma lend_any : in_use_single keep lowest anything ["Y"; "B"] (fst lend) (snd lend).
Proof. apply (usingle_more lowest no_nesting); [constructor|exact lend_use]. Qed.
Definition row_A := mkRow 0 None "A" (Some 5).
Definition row_Y := mkRow 2 (Some 0) "Y" (Some 3).
Definition row_B := mkRow 3 None "B" (Some 2).
Definition row_V := mkRow 5 (Some 2) "V" (Some 1).
Definition row_W := mkRow 6 (Some 3) "W" (Some 0).
Definition row_X := mkRow 1 (Some 0) "X" (Some 7).
Definition row_U := mkRow 4 (Some 1) "U" (Some 1).
Definition lrows : list row := [row_A; row_Y; row_B; row_V; row_W; row_X; row_U].
Lemma lend_rows : rows (store (snd lend)) = lrows.
Proof. vm_compute. reflexivity. Qed.
Lemma lend_state : expanded (snd lend) = [0; 0; 1; 1] /\ idle_calls (snd lend) = [].
Proof. vm_compute. auto. Qed.
Lemma at_X : at_path lrows row_X ["A"; "X"].
Proof. apply (at_below lrows row_X row_A ["A"]); [here|here|]. apply (at_top lrows row_A); here. Qed.
Lemma at_Y : at_path lrows row_Y ["A"; "Y"].
Proof. apply (at_below lrows row_Y row_A ["A"]); [here|here|]. apply (at_top lrows row_A); here. Qed.
Lemma lowest_again : exists k live live', address lowest k live = address lowest (S k) live'.
Proof. exists 0, [], []. reflexivity. Qed.

Lemma lone_open : faithful lowest /\ (exists k live live', address lowest k live = address lowest (S k) live') /\
  in_use_single keep lowest no_nesting ["Y"; "B"] (fst (fst (fst lend)), snd (fst (fst lend)), snd (fst lend)) (snd lend) /\
  idle_calls (snd lend) = [] /\ rows (store (snd lend)) = lrows /\
  (at_path lrows row_X ["A"; "X"] /\ has_below lrows row_X /\ is_open (snd lend) row_X) /\
  (at_path lrows row_Y ["A"; "Y"] /\ has_below lrows row_Y /\ ~ is_open (snd lend) row_Y).
Proof.
  split; [exact lowest_fresh|]. split; [exact lowest_again|]. split; [exact (usingle_parts _ _ _ _ _ lend_use)|]. split; [exact (proj2 lend_state)|]. split; [exact lend_rows|].
  unfold is_open. rewrite (proj1 lend_state). split; (split; [exact at_X || exact at_Y|]).
  - split; [exists row_U; here|here].
  - split; [exists row_V; here|]. intros H. vm_compute in H. intuition discriminate.
Qed.
Lemma lone_calls : faithful lowest /\ viewing keep gview /\ one_parent (base_tree gview) /\ (forall n, waiting (snd gview) n = []) /\
  in_use_single keep lowest anything ["Y"; "B"] (fst (fst (fst lend)), snd (fst (fst lend)), snd (fst lend)) (snd lend) /\
  supported (fst lend) (VTree (DelNode "A" true)) /\ one_parent (base_tree (fst (view_call keep (VTree (DelNode "A" true)) (fst lend)))) /\
  rows (store (snd (fst (panel_call lowest keep (VTree (DelNode "A" true)) (fst lend) (snd lend))))) = [row_B; row_W].
Proof.
  split; [exact lowest_fresh|]. split; [exact gview_viewing|]. split; [exact gview_lone|]. split; [reflexivity|]. split; [exact (usingle_parts _ _ _ _ _ lend_any)|].
  split; [apply supportedb_ok; vm_compute; reflexivity|]. split; [apply one_parentb; vm_compute; reflexivity|]. vm_compute. reflexivity.
Qed.
Lemma lone_places : faithful lowest /\ in_use_single keep lowest anything ["Y"; "B"] (fst (fst (fst lend)), snd (fst (fst lend)), snd (fst lend)) (snd lend) /\
  indices 5 (store (snd lend)) = Some [0; 0; 0] /\ option_map r_id (row_for [0; 0; 0] (store (snd lend))) = Some "V" /\
  emitted [0; 0; 0] (store (snd lend)) = Ok ["A"; "Y"; "V"] /\
  map (fun ix => row_for ix (store (snd lend))) [[0; 1]; [1]] = map Some [row_X; row_B].
Proof.
  split; [exact lowest_fresh|]. split; [exact (usingle_parts _ _ _ _ _ lend_any)|]. split; [vm_compute; reflexivity|]. split; [vm_compute; reflexivity|]. split; vm_compute; reflexivity.
Qed.
Lemma lone_called : faithful lowest /\ in_use_single keep lowest anything ["Y"; "B"] (fst (fst (fst lend)), snd (fst (fst lend)), snd (fst lend)) (snd lend) /\
  nth_error (sources sources_set) 1 = Some ("tags", 9) /\ row_for [0; 1] (store (snd lend)) = Some row_X /\
  at_path (rows (store (snd lend))) row_X ["A"; "X"] /\ goes_to After ["A"; "X"] = Some "A" /\
  map (fun jx => row_for jx (store (snd lone))) [[0]; [1]] = map Some [mkRow 0 None "a" (Some 5); mkRow 2 None "'q'" (Some 4)] /\
  drop_external (dnd_after sources_set) 2 (Some ([0; 1], After)) [[0]; [1]] (store (snd lend)) (store (snd lone)) = Ok [(9, "a", "A"); (9, "'q'", "A")].
Proof.
  split; [exact lowest_fresh|]. split; [exact (usingle_parts _ _ _ _ _ lend_any)|]. split; [reflexivity|]. split; [vm_compute; reflexivity|].
  split; [rewrite lend_rows; exact at_X|]. split; [reflexivity|]. split; vm_compute; reflexivity.
Qed.
Definition lapart : viewed * panel := fst (drop_here lowest keep (Some ([1], Into)) [[0; 0]; [0; 1]] (fst lend) (snd lend)).
Lemma lone_apart : faithful lowest /\ in_use_single keep lowest anything ["Y"; "B"] (fst (fst (fst lend)), snd (fst (fst lend)), snd (fst lend)) (snd lend) /\
  destination (Some ([1], Into)) (store (snd lend)) = Ok (Some "B") /\ rows_for [[0; 0]; [0; 1]] (store (snd lend)) = [row_Y; row_X] /\
  apart (rows (store (snd lend))) [row_Y; row_X] /\
  map (fun r => (r_addr r, r_id r, r_parent r)) (rows (store (snd lapart))) =
    [(0, "A", None); (3, "B", None); (6, "W", Some 3); (2, "Y", Some 3); (5, "V", Some 2); (1, "X", Some 3); (4, "U", Some 1)].
Proof.
  split; [exact lowest_fresh|]. split; [exact (usingle_parts _ _ _ _ _ lend_any)|]. split; [vm_compute; reflexivity|]. split; [vm_compute; reflexivity|].
  split; [|vm_compute; reflexivity].
  destruct (usingle_layout keep lowest keep_perm lowest_fresh _ _ _ _ _ _ (usingle_parts _ _ _ _ _ lend_any)) as (L & cs & HL).
  cbn [apart]. split; [|split; [intros r' l []|exact I]]. intros r' l [<-|[]] P.
  assert (Q : at_path (rows (store (snd lend))) row_X ["A"; "X"]) by (rewrite lend_rows; exact at_X).
  apply (layout_at _ _ _ HL) in P, Q. destruct (lay_addr _ _ _ HL _ _ _ _ P Q eq_refl) as [-> _]. simpl. intuition discriminate.
Qed.

(** A and X are dragged, and Y is moved. *)
Definition lstale : viewed * panel := fst (drop_here lowest keep (Some ([1], Into)) [[0]; [0; 1]] (fst lend) (snd lend)).
Lemma dragged_wrong : exists t b s p t' b' s' p' info data, faithful lowest /\ in_use_single keep lowest anything ["Y"; "B"] (t, b, s) p /\
  destination info (store p) = Ok (Some "B") /\ map r_id (rows_for data (store p)) = ["A"; "X"] /\
  drop_here lowest keep info data (t, b, s) p = (t', b', s', p', Ok tt) /\
  get_parents t "Y" = ["A"] /\ get_parents t' "Y" = ["B"] /\ get_parents t' "X" = ["A"].
Proof.
  exists (fst (fst (fst lend))), (snd (fst (fst lend))), (snd (fst lend)), (snd lend), (fst (fst (fst lstale))), (snd (fst (fst lstale))), (snd (fst lstale)), (snd lstale),
    (Some ([1], Into)), [[0]; [0; 1]].
  split; [exact lowest_fresh|]. split; [exact (usingle_parts _ _ _ _ _ lend_any)|]. split; [vm_compute; reflexivity|]. split; [vm_compute; reflexivity|].
  split; [vm_compute; reflexivity|]. split; [vm_compute; reflexivity|]. split; vm_compute; reflexivity.
Qed.
