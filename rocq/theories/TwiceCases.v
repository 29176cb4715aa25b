(** A second show() of a concrete widget. *)
From Coq Require Import Permutation.
From Verif Require Import Base BaseFacts MainTree Spec Filters FTree SpecApi SpecView SpecViewing Gtk SpecGtk Widget Twice SpecTwice
  Witness ApiWitness ViewWitness ViewCases GtkWitness TwiceFacts.

Definition tagain : viewed * gtk := fst (show_again counting (fst wend) (snd wend)).

Definition tagain_list : list row :=
  [mkRow 60 (Some 0) "c" (Some 5); mkRow 6 (Some 0) "c" (Some 5); mkRow 58 (Some 0) "c" (Some 5);
   mkRow 68 (Some 10) "z" (Some 3); mkRow 18 (Some 10) "z" (Some 3); mkRow 66 (Some 10) "z" (Some 3);
   mkRow 64 (Some 6) "d" (Some 2); mkRow 10 (Some 6) "d" (Some 2); mkRow 62 (Some 6) "d" (Some 2);
   mkRow 56 None "a" (Some 1); mkRow 0 None "a" (Some 1); mkRow 54 None "a" (Some 1)].
Lemma tagain_rows : rows (snd tagain) = tagain_list.
Proof. vm_compute. reflexivity. Qed.
Lemma three : forall (p : viewed * gtk * res unit), snd p = Ok tt -> p = (fst (fst p), snd (fst p), Ok tt).
Proof. intros [[x g] r] H. simpl in H. subst. auto. Qed.
Lemma tagain_ok : show_again counting (fst wend) (snd wend) = (fst tagain, snd tagain, Ok tt).
Proof. apply three. vm_compute. reflexivity. Qed.
Lemma doubled : forall rs X r r', r <> r' -> In r rs -> In r' rs -> r_parent r = None -> r_parent r' = None -> r_id r = r_id r' -> ~ shows rs X.
Proof. intros rs X r r' N I1 I2 P1 P2 E (_ & _ & _ & _ & H). apply N. apply (H r r' [r_id r]); [apply at_top; auto|rewrite E; apply at_top; auto]. Qed.

Lemma shown_parts : forall pf x g, shown_twice keep pf x g -> shown_twice keep pf (fst (fst x), snd (fst x), snd x) g.
Proof. intros pf [[t b] s] g H. exact H. Qed.

Lemma case_again : faithful counting /\ never_reuses counting /\ watching keep counting (fst wend) (snd wend) /\
  length (rows (snd wend)) = 4 /\ snd (show_again counting (fst wend) (snd wend)) = Ok tt /\ length (rows (snd tagain)) = 12.
Proof.
  split; [exact counting_fresh|]. split; [exact counting_new|]. split; [exact wend_watching|]. split; [vm_compute; reflexivity|]. split; vm_compute; reflexivity.
Qed.

Lemma tagain_shown : shown_twice keep counting (fst tagain) (snd tagain).
Proof.
  apply (twice_start keep counting (fst wend) (snd wend) (fst tagain) (snd tagain) (Ok tt)); [exact wend_watching|exact tagain_ok].
Qed.

Lemma case_removal : shown_twice keep counting (fst (fst (fst tagain)), snd (fst (fst tagain)), snd (fst tagain)) (snd tagain) /\
  snd (call_again keep counting (VTree (SetData "c" 8)) (fst tagain) (snd tagain)) = Ok tt /\
  snd (call_again keep counting (VTree (DelNode "z" false)) (fst tagain) (snd tagain)) = Err KeyError.
Proof.
  split; [exact (shown_parts _ _ _ tagain_shown)|]. split; vm_compute; reflexivity.
Qed.

Lemma shown_not : exists pf x g x' g', faithful pf /\ never_reuses pf /\ watching keep pf x g /\ show_again pf x g = (x', g', Ok tt) /\
  ~ shows (rows g') (view_path (snd x')).
Proof.
  exists counting, (fst wend), (snd wend), (fst tagain), (snd tagain). split; [exact counting_fresh|]. split; [exact counting_new|]. split; [exact wend_watching|].
  split; [exact tagain_ok|]. apply doubled with (r := mkRow 0 None "a" (Some 1)) (r' := mkRow 54 None "a" (Some 1)); [discriminate| | |reflexivity|reflexivity|reflexivity]; rewrite tagain_rows; simpl; tauto.
Qed.

Lemma removal_fails : exists pf x g c, faithful pf /\ never_reuses pf /\ shown_twice keep pf x g /\ supported x c /\ snd (call_again keep pf c x g) = Err KeyError.
Proof.
  exists counting, (fst tagain), (snd tagain), (VTree (DelNode "z" false)). split; [exact counting_fresh|]. split; [exact counting_new|]. split; [exact tagain_shown|].
  split; [apply supportedb_ok; vm_compute; reflexivity|vm_compute; reflexivity].
Qed.
