(** Concrete cases of trees in which no node has two parents. *)
From Coq Require Import Permutation.
From Verif Require Import Base BaseFacts MainTree Spec Filters FTree SpecApi SpecView SpecViewing SpecFrame Gtk SpecGtk SpecPaint StorePrint SpecPrint SpecLone
  FtTree FtMind FtView GtkView Witness ApiWitness ViewWitness ViewCases GtkWitness PaintCases.

Lemma one_parentb : forall t, loneb t = true -> one_parent t.
Proof. intros t H. exact (proj1 (loneb_iff t) H). Qed.
Fixpoint lone_callsb (pf : platform) (l : list vcall) (w : viewed * gtk) : bool :=
  match l with
  | [] => true
  | c :: rest => supportedb (fst w) c && loneb (base_tree (fst (fst (widget_call keep pf c (fst w) (snd w))))) &&
      lone_callsb pf rest (fst (widget_call keep pf c (fst w) (snd w)))
  end.
Lemma single_calls : forall pf l w, watching_single keep pf (fst w) (snd w) -> lone_callsb pf l w = true ->
  watching_single keep pf (fst (widget_calls pf l w)) (snd (widget_calls pf l w)).
Proof.
  intros pf. induction l as [|c l IH]; intros w V H; simpl in *; auto. apply andb_true_iff in H. destruct H as [H1 H2].
  apply andb_true_iff in H1. destruct H1 as [H1 H3]. apply IH; auto. apply supportedb_ok in H1. apply one_parentb in H3.
  apply (single_call keep pf _ _ c _ _ (snd (widget_call keep pf c (fst w) (snd w))) V H1); [|exact H3].
  destruct (widget_call keep pf c (fst w) (snd w)) as [[x g] r]. reflexivity.
Qed.
Lemma single_connect : forall pf x, viewing keep x -> one_parent (base_tree x) ->
  watching_single keep pf (fst (fst (connect pf x))) (snd (fst (connect pf x))).
Proof.
  intros pf x V L. apply (single_start keep pf x _ _ (snd (connect pf x)) V L). destruct (connect pf x) as [[y g] r]. reflexivity.
Qed.
Lemma single_parts : forall pf x g, watching_single keep pf x g -> watching_single keep pf (fst (fst x), snd (fst x), snd x) g.
Proof. intros pf [[t b] s] g H. exact H. Qed.

(** A node moves to and fro, and its row gets addresses that other rows had before. *)
Definition ssteps : list vcall :=
  [VTree (put "W" 3 (Some "X")); VTree (SetParent "X" (Some "B")); VTree (DelNode "Y" false); VTree (put "Z" 1 None); VTree (SetParent "X" (Some "A"));
   VTree (SetParent "X" (Some "B")); VTree (SetData "X" 9)].
Definition sstart : viewed * gtk := fst (connect lowest gview).
Definition send : viewed * gtk := widget_calls lowest ssteps sstart.
Lemma gview_lone : one_parent (base_tree gview).
Proof. apply one_parentb. vm_compute. reflexivity. Qed.
Lemma send_single : watching_single keep lowest (fst send) (snd send).
Proof. apply single_calls; [apply single_connect; [apply gview_viewing|apply gview_lone]|]. vm_compute. reflexivity. Qed.
Definition smove : vcall := VTree (SetParent "X" (Some "Z")).
Lemma smove_supported : supported (fst send) smove.
Proof. apply supportedb_ok. vm_compute. reflexivity. Qed.
Lemma smove_lone : one_parent (base_tree (fst (view_call keep smove (fst send)))).
Proof. apply one_parentb. vm_compute. reflexivity. Qed.

Lemma case_single : faithful lowest /\ (exists k live live', address lowest k live = address lowest (S k) live') /\
  watching_single keep lowest (fst (fst (fst send)), snd (fst (fst send)), snd (fst send)) (snd send) /\
  watched sstart = [(0, None, "A", Some 1); (1, Some 0, "X", Some 1); (2, Some 0, "Y", Some 2); (3, None, "B", Some 1)] /\
  watched send = [(0, None, "A", Some 1); (3, None, "B", Some 1); (2, None, "Z", Some 1); (1, Some 3, "X", Some 9); (4, Some 1, "W", Some 3)].
Proof.
  split; [exact lowest_fresh|]. split; [exists 0, [], []; reflexivity|]. split; [exact (single_parts _ _ _ send_single)|].
  split; vm_compute; reflexivity.
Qed.
Lemma case_single_call : faithful lowest /\ viewing keep gview /\ one_parent (base_tree gview) /\
  watching_single keep lowest (fst send) (snd send) /\ supported (fst send) smove /\ one_parent (base_tree (fst (view_call keep smove (fst send)))) /\
  watched (fst (widget_call keep lowest smove (fst send) (snd send))) =
    [(0, None, "A", Some 1); (3, None, "B", Some 1); (2, None, "Z", Some 1); (1, Some 2, "X", Some 9); (4, Some 1, "W", Some 3)].
Proof.
  split; [exact lowest_fresh|]. split; [exact gview_viewing|]. split; [exact gview_lone|]. split; [exact send_single|]. split; [exact smove_supported|].
  split; [exact smove_lone|]. vm_compute. reflexivity.
Qed.
Lemma case_single_print : faithful lowest /\ watching_single keep lowest (fst (fst (fst send)), snd (fst (fst send)), snd (fst send)) (snd send) /\
  store_print (snd send) = Ok [" A"; " B"; "=> X"; "=>=> W"; " Z"].
Proof. split; [exact lowest_fresh|]. split; [exact (single_parts _ _ _ send_single)|]. vm_compute. reflexivity. Qed.

(** The rows of X and W stay while Z moves below X. *)
Definition swide : viewed * gtk := fst (widget_call keep lowest (VTree (SetParent "Z" (Some "X"))) (fst send) (snd send)).
Lemma case_single_stays : faithful lowest /\ watching_single keep lowest (fst (fst (fst send)), snd (fst (fst send)), snd (fst send)) (snd send) /\
  supported (fst send) (VTree (SetParent "Z" (Some "X"))) /\ one_parent (after (SetParent "Z" (Some "X")) (base_tree (fst send))) /\
  widget_call keep lowest (VTree (SetParent "Z" (Some "X"))) (fst send) (snd send) = (swide, Ok tt) /\
  at_path (rows (snd send)) (mkRow 4 (Some 1) "W" (Some 3)) ["B"; "X"; "W"] /\ view_path (snd (fst swide)) ["B"; "X"; "W"] /\
  watched swide = [(0, None, "A", Some 1); (3, None, "B", Some 1); (1, Some 3, "X", Some 9); (4, Some 1, "W", Some 3); (2, Some 1, "Z", Some 1)].
Proof.
  split; [exact lowest_fresh|]. split; [exact (single_parts _ _ _ send_single)|]. split; [apply supportedb_ok; vm_compute; reflexivity|].
  split; [apply one_parentb; vm_compute; reflexivity|]. split; [vm_compute; reflexivity|]. split; [|split; [split; [discriminate|vm_compute; tauto]|vm_compute; reflexivity]].
  replace (rows (snd send)) with [mkRow 0 None "A" (Some 1); mkRow 3 None "B" (Some 1); mkRow 2 None "Z" (Some 1); mkRow 1 (Some 3) "X" (Some 9); mkRow 4 (Some 1) "W" (Some 3)] by (vm_compute; reflexivity).
  apply (at_below _ (mkRow 4 (Some 1) "W" (Some 3)) (mkRow 1 (Some 3) "X" (Some 9)) ["B"; "X"]); [simpl; tauto|reflexivity|].
  apply (at_below _ (mkRow 1 (Some 3) "X" (Some 9)) (mkRow 3 None "B" (Some 1)) ["B"]); [simpl; tauto|reflexivity|].
  apply (at_top _ (mkRow 3 None "B" (Some 1))); [simpl; tauto|reflexivity].
Qed.

(** Columns. *)
Definition sset : viewed * gtk := fst (connect (repainted lowest Some) gview).
Definition sdone : viewed * gtk := fst (widget_call keep (repainted lowest by_parity) (VTree RefreshAll) (fst sset) (snd sset)).
Definition sgone : viewed * gtk := fst (widget_call keep (repainted lowest by_parity) (VTree (SetParent "Y" (Some "X"))) (fst sdone) (snd sdone)).
Lemma sset_single : painting_single keep lowest by_parity false (fst sset) (snd sset).
Proof.
  apply (psingle_set keep lowest Some by_parity true). apply (psingle_start keep lowest Some gview _ _ (Ok tt)); [apply gview_viewing|apply gview_lone|]. vm_compute. reflexivity.
Qed.
Lemma sdone_single : painting_single keep lowest by_parity true (fst sdone) (snd sdone).
Proof. apply (psingle_refresh keep lowest by_parity false _ _ _ _ (Ok tt) sset_single). vm_compute. reflexivity. Qed.
Lemma sgone_single : painting_single keep lowest by_parity true (fst sgone) (snd sgone).
Proof.
  apply (psingle_call keep lowest by_parity true _ _ (VTree (SetParent "Y" (Some "X"))) _ _ (Ok tt) sdone_single); [apply supportedb_ok; vm_compute; reflexivity|vm_compute; reflexivity|].
  apply one_parentb. vm_compute. reflexivity.
Qed.
Lemma psingle_parts : forall f k x g, painting_single keep lowest f k x g -> painting_single keep lowest f k (fst (fst x), snd (fst x), snd x) g.
Proof. intros f k [[t b] s] g H. exact H. Qed.
Lemma case_psingle : faithful lowest /\ (forall d, by_parity d <> None) /\
  painting_single keep lowest by_parity true (fst (fst (fst sgone)), snd (fst (fst sgone)), snd (fst sgone)) (snd sgone) /\
  watched sset = [(0, None, "A", Some 1); (1, Some 0, "X", Some 1); (2, Some 0, "Y", Some 2); (3, None, "B", Some 1)] /\
  watched sgone = [(0, None, "A", Some 3); (1, Some 0, "X", Some 3); (3, None, "B", Some 3); (2, Some 1, "Y", Some 2)].
Proof.
  split; [exact lowest_fresh|]. split; [discriminate|]. split; [exact (psingle_parts _ _ _ _ sgone_single)|]. split; vm_compute; reflexivity.
Qed.

(** A node that moves is taken back before it is announced. *)
Definition gmove : vcall := VTree (SetParent "X" (Some "B")).
Definition gold : list (list id) := [["A"]; ["B"]; ["A"; "X"]; ["A"; "Y"]].
Lemma hear_snocs : forall cs l c1 x c2, hear_all cs l c1 -> hear c1 x c2 -> hear_all cs (l ++ [x]) c2.
Proof. intros. econstructor; eauto. Qed.
Lemma gold_heard : hear_all gold [SModified "A" ["A"]; SDeleted "X" ["A"; "X"]; SModified "A" ["A"]] [["A"]; ["B"]; ["A"; "Y"]].
Proof.
  apply (hear_snocs gold [SModified "A" ["A"]; SDeleted "X" ["A"; "X"]] [["A"]; ["B"]; ["A"; "Y"]]); [|apply (hear_modified _ [] "A"); simpl; auto].
  apply (hear_snocs gold [SModified "A" ["A"]] gold); [|apply (hear_deleted gold ["A"] "X"); [simpl; auto|]].
  - apply (hear_snocs gold [] gold); [constructor|apply (hear_modified _ [] "A"); simpl; auto].
  - intros below Nb H. simpl in H. destruct below; [congruence|]. repeat destruct H as [H|H]; try discriminate. destruct H.
Qed.
Lemma gold_paths : forall l, In l gold <-> view_path (snd gview) l.
Proof.
  pose proof (FtView.viewing_current keep keep_perm gview gview_viewing) as C. destruct gview as [[t b] s] eqn:E. cbn [snd].
  destruct (current_heard t b s C) as (cs & H & K). apply hear_all_learn in H. replace s with (snd gview) in H by (rewrite E; auto).
  intros l. rewrite <- K, H. vm_compute. intuition.
Qed.
Lemma case_new : viewing keep (fst (fst gview), snd (fst gview), snd gview) /\ supported (fst (fst gview), snd (fst gview), snd gview) gmove /\
  one_parent (fst (fst gview)) /\ one_parent (base_tree (fst (view_call keep gmove gview))) /\ (forall l, In l gold <-> view_path (snd gview) l) /\
  news (snd gview) (snd (fst (view_call keep gmove gview))) = [SModified "A" ["A"]; SDeleted "X" ["A"; "X"]; SModified "A" ["A"]] ++ SAdded "X" ["X"] ::
    [SModified "X" ["X"]; SModified "B" ["B"]; SDeleted "X" ["X"]; SAdded "X" ["B"; "X"]; SModified "X" ["B"; "X"]; SModified "B" ["B"]; SModified "X" ["B"; "X"]] /\
  hear_all gold [SModified "A" ["A"]; SDeleted "X" ["A"; "X"]; SModified "A" ["A"]] [["A"]; ["B"]; ["A"; "Y"]].
Proof.
  split; [exact gview_viewing|]. split; [apply supportedb_ok; vm_compute; reflexivity|]. split; [exact gview_lone|]. split; [apply one_parentb; vm_compute; reflexivity|].
  split; [exact gold_paths|]. split; [vm_compute; reflexivity|exact gold_heard].
Qed.
(** With two parents a node is announced while it is known elsewhere. *)
Lemma two_parents : exists t b s c cs n q, viewing keep (t, b, s) /\ supported (t, b, s) c /\ one_parent t /\ (forall l, In l cs <-> view_path s l) /\
  hd_error (news s (snd (fst (view_call keep c (t, b, s))))) = Some (SModified "B" ["B"]) /\
  In (SAdded n q) (news s (snd (fst (view_call keep c (t, b, s))))) /\ In ["A"; n] cs /\ ~ In (SDeleted n ["A"; n]) (news s (snd (fst (view_call keep c (t, b, s))))).
Proof.
  exists (fst (fst gview)), (snd (fst gview)), (snd gview), (VTree (NewRelationship "B" "X")), gold, "X", ["B"; "X"].
  split; [exact gview_viewing|]. split; [apply supportedb_ok; vm_compute; reflexivity|]. split; [exact gview_lone|]. split; [exact gold_paths|].
  split; [vm_compute; reflexivity|]. split; [vm_compute; tauto|]. split; [vm_compute; tauto|]. vm_compute. intuition discriminate.
Qed.
Lemma case_place : viewing keep (fst (fst gview), snd (fst gview), snd gview) /\ one_parent (fst (fst gview)) /\ view_path (snd gview) (["A"] ++ ["X"]).
Proof. split; [exact gview_viewing|]. split; [exact gview_lone|]. apply gold_paths. simpl. auto. Qed.
