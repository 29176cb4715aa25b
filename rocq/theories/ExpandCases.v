(** A concrete widget some rows of which are opened. *)
From Verif Require Import Base BaseFacts MainTree Spec Filters FTree SpecApi SpecView SpecViewing Gtk SpecGtk Widget SpecWidget SpecExpand
  Witness ApiWitness ViewWitness GtkWitness WidgetWitness WidgetExpand.

(** expand_node for a node that is not there, rows closed by hand, the node is added
    with a node below it, and its row is closed again by hand. *)
Inductive hstep := HCall (c : vcall) | HNode (opening : bool) (n : id) | HIdle | HHand (l : list nat).
Definition hand_step (u : hstep) (w : viewed * panel) : viewed * panel :=
  let '(x, p) := w in
  match u with
  | HCall c => fst (panel_call counting keep c x p)
  | HNode o n => let '(s', p', _) := collapse_node o [n] (snd x) p in (fst x, s', p')
  | HIdle => let '(s', p', _) := run_idle (snd x) p in (fst x, s', p')
  | HHand l => (x, set_expanded l p)
  end.
Fixpoint hand_steps (l : list hstep) (w : viewed * panel) : viewed * panel := match l with [] => w | u :: r => hand_steps r (hand_step u w) end.
Fixpoint hands_okb (l : list hstep) (w : viewed * panel) : bool :=
  match l with
  | [] => true
  | u :: r => match u with HCall c => supportedb (fst w) c && match c with VQueue _ a => Nat.leb 2 a | _ => true end | _ => true end && hands_okb r (hand_step u w)
  end.
Lemma hand_steps_ok : forall l w, handled keep counting (fst w) (snd w) -> hands_okb l w = true -> handled keep counting (fst (hand_steps l w)) (snd (hand_steps l w)).
Proof.
  induction l as [|u l IH]; intros w U H; cbn [hand_steps hands_okb] in *; auto. apply andb_true_iff in H. destruct H as [H1 H2].
  apply IH; auto. clear IH H2. destruct w as [[[t b] s] p]. destruct u as [c|o n| |k]; cbn [fst snd hand_step] in *.
  - apply andb_true_iff in H1. destruct H1 as [H1 H3]. apply supportedb_ok in H1.
    apply (handled_call keep counting (t, b, s) p c _ _ (snd (panel_call counting keep c (t, b, s) p))); auto.
    + intros n a ->. apply Nat.leb_le. auto.
    + destruct (panel_call counting keep c (t, b, s) p) as [[x1 p1] r1]. reflexivity.
  - destruct (collapse_node o [n] s p) as [[s' p'] r] eqn:E. apply (handled_node keep counting o [n] t b s p s' p' r); auto.
  - destruct (run_idle s p) as [[s' p'] r] eqn:E. apply (handled_idle keep counting t b s p s' p' r); auto.
  - apply handled_user. exact U.
Qed.

Definition hbefore : viewed * panel := hand_steps [HNode true "e"; HHand []] uend.
Definition hasked : viewed * panel := hand_steps [HNode true "e"; HHand []; HNode true "'z'"] uend.
Definition hadded : viewed * panel := hand_step (HCall (VTree (put "z" 1 None))) hasked.
Definition hend : viewed * panel :=
  hand_steps [HNode true "e"; HHand []; HNode true "'z'"; HCall (VTree (put "z" 1 None)); HCall (VTree (put "y" 1 (Some "z"))); HHand [2]] uend.
Definition row_z := mkRow 34 None "z" (Some 1).
Definition parts (w : viewed * panel) : viewed := (fst (fst (fst w)), snd (fst (fst w)), snd (fst w)).
Lemma parts_ok : forall w, handled keep counting (fst w) (snd w) -> handled keep counting (parts w) (snd w).
Proof. intros [[[t b] s] p] H. exact H. Qed.
Lemma uend_handled : handled keep counting (fst uend) (snd uend).
Proof. exact (in_use_handled _ _ _ _ _ _ uend_use). Qed.
Lemma hands_ok : forall l w, hands_okb l uend = true -> w = hand_steps l uend -> handled keep counting (parts w) (snd w).
Proof. intros l w H ->. apply parts_ok. apply hand_steps_ok; [exact uend_handled|exact H]. Qed.
Lemma hbefore_handled : handled keep counting (parts hbefore) (snd hbefore).
Proof. eapply hands_ok; [|unfold hbefore; reflexivity]. vm_compute. reflexivity. Qed.
Lemma hasked_handled : handled keep counting (parts hasked) (snd hasked).
Proof. eapply hands_ok; [|unfold hasked; reflexivity]. vm_compute. reflexivity. Qed.
Lemma hend_handled : handled keep counting (parts hend) (snd hend).
Proof. eapply hands_ok; [|unfold hend; reflexivity]. vm_compute. reflexivity. Qed.

Definition ufold : panel := snd (fst (collapse_node true ["e"] (snd (parts hend)) (snd hend))).
Lemma case_expand : faithful counting /\ never_reuses counting /\ handled keep counting (parts hend) (snd hend) /\
  strip "e" <> "" /\ In (strip "e") (view_all_nodes (snd (parts hend))) /\
  ~ is_open (snd hend) row_e /\ is_open ufold row_e /\ has_below (rows (store ufold)) row_f /\ in_sight ufold row_f /\ ~ is_open ufold row_f.
Proof.
  destruct case_open as (A & B & _). split; [exact A|]. split; [exact B|]. split; [exact hend_handled|]. split; [vm_compute; discriminate|].
  split; [vm_compute; tauto|]. split; [vm_compute; intuition discriminate|]. split; [vm_compute; tauto|].
  split; [exists row_g; split; [vm_compute; tauto|reflexivity]|]. split; [vm_compute; tauto|]. vm_compute. intuition discriminate.
Qed.
Lemma case_expand_wait : handled keep counting (parts hbefore) (snd hbefore) /\ strip "'z'" = "z" /\ is_displayed (snd (parts hbefore)) "z" = false /\
  waiting (snd (parts hasked)) "z" = [1].
Proof. split; [exact hbefore_handled|]. repeat (split; [vm_compute; reflexivity|]). vm_compute; reflexivity. Qed.
Lemma case_expand_comes : handled keep counting (parts hasked) (snd hasked) /\ supported (parts hasked) (VTree (put "z" 1 None)) /\ In 1 (waiting (snd (parts hasked)) "z") /\
  is_displayed (snd (parts hadded)) "z" = true /\ idle_calls (snd hadded) = [("z", true)].
Proof.
  split; [exact hasked_handled|]. split; [apply supportedb_ok; vm_compute; reflexivity|]. split; [vm_compute; auto|]. split; vm_compute; reflexivity.
Qed.
Lemma case_expand_idle : handled keep counting (parts hend) (snd hend) /\ idle_calls (snd hend) = [("z", true)] /\ In "z" (view_all_nodes (snd (parts hend))) /\
  ~ is_open (snd hend) row_z /\ is_open (snd (fst (run_idle (snd (parts hend)) (snd hend)))) row_z.
Proof.
  split; [exact hend_handled|]. split; [vm_compute; reflexivity|]. split; [vm_compute; tauto|]. split; [vm_compute; intuition discriminate|vm_compute; tauto].
Qed.
Lemma case_any : faithful counting /\ never_reuses counting /\ handled keep counting (parts hend) (snd hend) /\ expanded (snd hend) = [2] /\
  map r_id (rows (store (snd hend))) = ["a"; "b"; "c"; "e"; "z"; "g"; "f"; "h"; "y"; "i"].
Proof.
  destruct case_open as (A & B & _). split; [exact A|]. split; [exact B|]. split; [exact hend_handled|]. split; vm_compute; reflexivity.
Qed.
Lemma case_any_calls : handled keep counting (parts hend) (snd hend) /\ supported (parts hend) (VTree (DelNode "a" true)) /\ strip "'b'" = "b" /\
  map r_id (rows (store (snd (fst (panel_call counting keep (VTree (DelNode "a" true)) (parts hend) (snd hend)))))) = ["e"; "z"; "g"; "f"; "y"].
Proof.
  split; [exact hend_handled|]. split; [apply supportedb_ok; vm_compute; reflexivity|]. split; vm_compute; reflexivity.
Qed.

Lemma never_opened : exists t b s p asked p1 p2 n m r, in_use keep counting no_nesting asked (t, b, s) p /\
  In n (view_all_nodes s) /\ collapse_node true [n] s p = (s, p1, Ok tt) /\ idle_calls p1 = [] /\ waiting s n = [] /\
  collapse_node true [m] s p1 = (s, p2, Ok tt) /\ idle_calls p2 = [] /\
  In r (rows (store p2)) /\ r_id r = n /\ has_below (rows (store p2)) r /\ in_sight p2 r /\ ~ is_open p2 r.
Proof.
  exists (fst (fst (fst uend))), (snd (fst (fst uend))), (snd (fst uend)), (snd uend), ["h"; "e"],
    (snd (fst (collapse_node true ["f"] (snd (fst uend)) (snd uend)))),
    (snd (fst (collapse_node true ["e"] (snd (fst uend)) (snd (fst (collapse_node true ["f"] (snd (fst uend)) (snd uend))))))), "f", "e", row_f.
  split; [exact (proj1 (proj2 (proj2 case_open)))|]. split; [vm_compute; tauto|]. split; [vm_compute; reflexivity|]. split; [vm_compute; reflexivity|].
  split; [vm_compute; reflexivity|]. split; [vm_compute; reflexivity|]. split; [vm_compute; reflexivity|]. split; [vm_compute; tauto|]. split; [reflexivity|].
  split; [exists row_g; split; [vm_compute; tauto|reflexivity]|]. split; [vm_compute; tauto|]. vm_compute. intuition discriminate.
Qed.
