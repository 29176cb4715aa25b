(** A concrete widget some rows of which are closed. *)
From Verif Require Import Base BaseFacts MainTree Spec Filters FTree SpecApi SpecView SpecViewing Gtk SpecGtk Widget SpecWidget SpecExpand
  Witness ApiWitness ViewWitness GtkWitness WidgetWitness WidgetExpand WidgetClose WidgetStill ExpandCases.

Definition kopen : viewed * panel := hand_steps [HNode true "e"; HNode true "f"] uend.
Definition kasked : viewed * panel := hand_steps [HNode true "e"; HNode false "'z'"] uend.
Definition kadded : viewed * panel := hand_step (HCall (VTree (put "z" 1 None))) kasked.
Definition kend : viewed * panel := hand_steps [HNode true "e"; HNode false "'z'"; HCall (VTree (put "z" 1 None)); HCall (VTree (put "y" 1 (Some "z")))] uend.
Lemma kopen_handled : handled keep counting (parts kopen) (snd kopen).
Proof. eapply hands_ok; [|unfold kopen; reflexivity]. vm_compute. reflexivity. Qed.
Lemma kasked_handled : handled keep counting (parts kasked) (snd kasked).
Proof. eapply hands_ok; [|unfold kasked; reflexivity]. vm_compute. reflexivity. Qed.
Lemma kend_handled : handled keep counting (parts kend) (snd kend).
Proof. eapply hands_ok; [|unfold kend; reflexivity]. vm_compute. reflexivity. Qed.

Definition kclosed : panel := snd (fst (collapse_node false ["e"] (snd (parts kopen)) (snd kopen))).
Lemma case_close : faithful counting /\ never_reuses counting /\ handled keep counting (parts kopen) (snd kopen) /\
  strip "e" <> "" /\ In (strip "e") (view_all_nodes (snd (parts kopen))) /\
  is_open (snd kopen) row_e /\ is_open (snd kopen) row_f /\ is_open (snd kopen) row_b /\ ~ is_open kclosed row_e /\ ~ is_open kclosed row_f /\ is_open kclosed row_b.
Proof.
  destruct case_open as (A & B & _). split; [exact A|]. split; [exact B|]. split; [exact kopen_handled|]. split; [vm_compute; discriminate|].
  split; [vm_compute; tauto|]. split; [vm_compute; tauto|]. split; [vm_compute; tauto|]. split; [vm_compute; tauto|].
  split; [vm_compute; intuition discriminate|]. split; [vm_compute; intuition discriminate|]. vm_compute; tauto.
Qed.
Lemma case_close_wait : handled keep counting (parts hbefore) (snd hbefore) /\ strip "'z'" = "z" /\ is_displayed (snd (parts hbefore)) "z" = false.
Proof. split; [exact hbefore_handled|]. split; vm_compute; reflexivity. Qed.
Lemma case_close_comes : handled keep counting (parts kasked) (snd kasked) /\ supported (parts kasked) (VTree (put "z" 1 None)) /\ In 0 (waiting (snd (parts kasked)) "z") /\
  is_displayed (snd (parts kadded)) "z" = true /\ idle_calls (snd kadded) = [("z", false)].
Proof.
  split; [exact kasked_handled|]. split; [apply supportedb_ok; vm_compute; reflexivity|]. split; [vm_compute; auto|]. split; vm_compute; reflexivity.
Qed.
Lemma case_close_idle : handled keep counting (parts kend) (snd kend) /\ idle_calls (snd kend) = [("z", false)] /\ In "z" (view_all_nodes (snd (parts kend))) /\
  is_open (snd kend) row_z /\ ~ is_open (snd (fst (run_idle (snd (parts kend)) (snd kend)))) row_z.
Proof.
  split; [exact kend_handled|]. split; [vm_compute; reflexivity|]. split; [vm_compute; tauto|]. split; [vm_compute; tauto|vm_compute; intuition discriminate].
Qed.

Lemma refused : forall opening s p, collapse_node opening [] s p = (s, p, Err IndexError) /\
  forall above n, strip n = "" -> collapse_node opening (above ++ [n]) s p = (s, p, Err PyException).
Proof. intros opening s p. split; [reflexivity|]. intros above n E. unfold collapse_node. rewrite rev_app_distr. cbn [rev List.app]. rewrite E. reflexivity. Qed.

(** The row of a collapsed node loses all rows below it and gets another one, while
    rows of others are opened. Without collapse_node it would be open. *)
Definition mclosed : viewed * panel := hand_step (HNode false "'a'") kopen.
Definition mrest : list hstep := [HCall (VTree (DelNode "b" true)); HCall (VTree (DelNode "h" true)); HCall (VTree (put "j" 1 (Some "a"))); HNode true "e"; HHand [12]].
Fixpoint mean_okb (n : id) (l : list hstep) (w : viewed * panel) : bool :=
  match l with
  | [] => true
  | u :: r =>
      match u with
      | HCall c => supportedb (fst w) c
      | HNode o m => negb o || negb (String.eqb (strip m) n)
      | HIdle => match idle_calls (snd w) with (m, true) :: _ => negb (String.eqb m n) | _ => true end
      | HHand l => forallb (fun a => existsb (Nat.eqb a) (expanded (snd w)) || existsb (fun r => Nat.eqb (r_addr r) a && negb (String.eqb (r_id r) n)) (rows (store (snd w)))) l
      end && mean_okb n r (hand_step u w)
  end.
Lemma mean_okb_ok : forall n x0 p0 l w, meanwhile keep counting n x0 p0 (fst w) (snd w) -> mean_okb n l w = true ->
  meanwhile keep counting n x0 p0 (fst (hand_steps l w)) (snd (hand_steps l w)).
Proof.
  intros n x0 p0. induction l as [|u l IH]; intros w U H; cbn [hand_steps mean_okb] in *; auto. apply andb_true_iff in H. destruct H as [H1 H2].
  apply IH; auto. clear IH H2. destruct w as [[[t b] s] p]. destruct u as [c|o m| |k]; cbn [fst snd hand_step] in *.
  - apply supportedb_ok in H1. apply (mean_call keep counting n x0 p0 (t, b, s) p c _ _ (snd (panel_call counting keep c (t, b, s) p))); auto.
    destruct (panel_call counting keep c (t, b, s) p) as [[x1 p1] r1]. reflexivity.
  - destruct (collapse_node o [m] s p) as [[s' p'] r] eqn:E. apply (mean_node keep counting n x0 p0 o [] m t b s p s' p' r); auto.
    intros ->. apply negb_true_iff in H1. intros Z. apply String.eqb_eq in Z. congruence.
  - destruct (run_idle s p) as [[s' p'] r] eqn:E. apply (mean_idle keep counting n x0 p0 t b s p s' p' r); auto.
    intros rest Z. rewrite Z in H1. rewrite String.eqb_refl in H1. discriminate.
  - apply mean_user; auto. intros a Ha. rewrite forallb_forall in H1. apply H1 in Ha. apply orb_true_iff in Ha. destruct Ha as [Ha|Ha]; apply existsb_exists in Ha.
    + left. destruct Ha as (x & Ix & Ex). apply Nat.eqb_eq in Ex. subst. exact Ix.
    + right. destruct Ha as (r & Ir & Er). apply andb_true_iff in Er. destruct Er as [E1 E2]. apply Nat.eqb_eq in E1. apply negb_true_iff in E2. exists r. split; auto. split; auto.
      intros Z. apply String.eqb_eq in Z. congruence.
Qed.
Lemma mclosed_parts : forall w : viewed * panel, fst w = parts w.
Proof. intros [[[t b] s] p]. reflexivity. Qed.
Definition row_j := mkRow 74 (Some 0) "j" (Some 1).
Definition mend : viewed * panel := hand_steps mrest mclosed.
Lemma case_stays : faithful counting /\ never_reuses counting /\ handled keep counting (parts kopen) (snd kopen) /\ rows_open (snd kopen) /\ strip "'a'" = "a" /\ In "a" (view_all_nodes (snd (parts kopen))) /\
  collapse_node false ["'a'"] (snd (parts kopen)) (snd kopen) = (snd (parts mclosed), snd mclosed, Ok tt) /\
  meanwhile keep counting "a" (parts mclosed) (snd mclosed) (parts mend) (snd mend) /\
  In row_a (rows (store (snd mend))) /\ has_below (rows (store (snd mend))) row_a /\ ~ is_open (snd mend) row_a /\
  is_open (snd (hand_steps [HCall (VTree (DelNode "b" true)); HCall (VTree (DelNode "h" true)); HCall (VTree (put "j" 1 (Some "a")))] kopen)) row_a.
Proof.
  destruct case_open as (A & B & _). split; [exact A|]. split; [exact B|]. split; [exact kopen_handled|]. split.
  { assert (E : expanded (snd kopen) = [0; 0; 2; 2; 12; 14] /\ rows (store (snd kopen)) = urows) by (vm_compute; auto).
    destruct E as [E1 E2]. intros a Ha. rewrite E1 in Ha. rewrite E2. clear E1 E2.
    simpl in Ha. destruct Ha as [<-|[<-|[<-|[<-|[<-|[<-|[]]]]]]]; [exists row_a|exists row_a|exists row_b|exists row_b|exists row_e|exists row_f]; (split; [|reflexivity]); unfold urows; simpl; auto 10. }
  split; [reflexivity|]. split; [vm_compute; tauto|]. split; [vm_compute; reflexivity|]. split.
  { rewrite <- !mclosed_parts. unfold mend. apply mean_okb_ok; [apply mean_start|vm_compute; reflexivity]. }
  split; [vm_compute; tauto|]. split.
  { exists row_j. split; [vm_compute; tauto|reflexivity]. }
  split; [vm_compute; intuition discriminate|]. vm_compute; tauto.
Qed.

Lemma rows_openb : forall p, forallb (fun a => existsb (fun r => Nat.eqb (r_addr r) a) (rows (store p))) (expanded p) = true -> rows_open p.
Proof.
  intros p H a Ha. rewrite forallb_forall in H. apply H in Ha. apply existsb_exists in Ha. destruct Ha as (r & Ir & Er). apply Nat.eqb_eq in Er. exists r. auto.
Qed.

(** z is closed in a callback, loses the node below it and gets another. *)
Definition mturn : viewed * panel := hand_step HIdle kend.
Definition mlater : viewed * panel := hand_steps [HCall (VTree (DelNode "y" true)); HCall (VTree (put "x" 1 (Some "z")))] mturn.
Lemma case_stays_idle : faithful counting /\ never_reuses counting /\ handled keep counting (parts kend) (snd kend) /\ rows_open (snd kend) /\ idle_calls (snd kend) = [("z", false)] /\
  In "z" (view_all_nodes (snd (parts kend))) /\ run_idle (snd (parts kend)) (snd kend) = (snd (parts mturn), snd mturn, Ok tt) /\
  meanwhile keep counting "z" (parts mturn) (snd mturn) (parts mlater) (snd mlater) /\
  In row_z (rows (store (snd mlater))) /\ has_rows 34 (store (snd mlater)) = true /\ ~ is_open (snd mlater) row_z /\
  is_open (snd (hand_steps [HCall (VTree (DelNode "y" true)); HCall (VTree (put "x" 1 (Some "z")))] kend)) row_z.
Proof.
  destruct case_open as (A & B & _). split; [exact A|]. split; [exact B|]. split; [exact kend_handled|]. split; [apply rows_openb; vm_compute; reflexivity|].
  split; [vm_compute; reflexivity|]. split; [vm_compute; tauto|]. split; [vm_compute; reflexivity|]. split.
  { rewrite <- !mclosed_parts. unfold mlater. apply mean_okb_ok; [apply mean_start|vm_compute; reflexivity]. }
  split; [vm_compute; tauto|]. split; [vm_compute; reflexivity|]. split; [vm_compute; intuition discriminate|]. vm_compute; tauto.
Qed.
