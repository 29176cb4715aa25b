(** A concrete widget with addresses that are used again, some rows of which are opened and closed. *)
From Verif Require Import Base BaseFacts MainTree Spec Filters FTree SpecApi SpecView SpecViewing Gtk SpecGtk Widget SpecWidget SpecLone SpecExpand SpecExpandLone
  FtTree FtMind Witness ApiWitness ViewWitness GtkWitness GtkFacts WidgetPlaces WidgetWitness LoneCases LoneWidget LoneWidgetCases ExpandCases CloseCases WidgetExpandLone.

Definition lhand (u : hstep) (w : viewed * panel) : viewed * panel :=
  let '(x, p) := w in
  match u with
  | HCall c => fst (panel_call lowest keep c x p)
  | HNode o n => let '(s', p', _) := collapse_node o [n] (snd x) p in (fst x, s', p')
  | HIdle => let '(s', p', _) := run_idle (snd x) p in (fst x, s', p')
  | HHand l => (x, set_expanded l p)
  end.
Fixpoint lhands (l : list hstep) (w : viewed * panel) : viewed * panel := match l with [] => w | u :: r => lhands r (lhand u w) end.
Fixpoint lhands_okb (l : list hstep) (w : viewed * panel) : bool :=
  match l with
  | [] => true
  | u :: r => match u with HCall c => supportedb (fst w) c && match c with VQueue _ a => Nat.leb 2 a | _ => true end | _ => true end &&
      loneb (base_tree (fst (lhand u w))) && lhands_okb r (lhand u w)
  end.
Lemma lhands_ok : forall l w, handled_single keep lowest (fst w) (snd w) -> lhands_okb l w = true -> handled_single keep lowest (fst (lhands l w)) (snd (lhands l w)).
Proof.
  induction l as [|u l IH]; intros w U H; cbn [lhands lhands_okb] in *; auto. apply andb_true_iff in H. destruct H as [H H2].
  apply andb_true_iff in H. destruct H as [H1 H4]. apply one_parentb in H4.
  apply IH; auto. clear IH H2. destruct w as [[[t b] s] p]. destruct u as [c|o n| |k]; cbn [fst snd lhand] in *.
  - apply andb_true_iff in H1. destruct H1 as [H1 H3]. apply supportedb_ok in H1.
    apply (hsingle_call keep lowest (t, b, s) p c _ _ (snd (panel_call lowest keep c (t, b, s) p))); auto.
    + intros n a ->. apply Nat.leb_le. auto.
    + destruct (panel_call lowest keep c (t, b, s) p) as [[x1 p1] r1]. reflexivity.
  - destruct (collapse_node o [n] s p) as [[s' p'] r] eqn:E. apply (hsingle_node keep lowest o [n] t b s p s' p' r); auto.
  - destruct (run_idle s p) as [[s' p'] r] eqn:E. apply (hsingle_idle keep lowest t b s p s' p' r); auto.
  - apply hsingle_user. exact U.
Qed.
Lemma lparts : forall w, handled_single keep lowest (fst w) (snd w) -> handled_single keep lowest (parts w) (snd w).
Proof. intros [[[t b] s] p] H. exact H. Qed.
Lemma lend_handled : handled_single keep lowest (fst lend) (snd lend).
Proof. exact (usingle_handled _ _ _ _ _ _ lend_use). Qed.
Lemma lhands_end : forall l w, lhands_okb l lend = true -> w = lhands l lend -> handled_single keep lowest (parts w) (snd w).
Proof. intros l w H ->. apply lparts. apply lhands_ok; [exact lend_handled|exact H]. Qed.

(** expand_node or collapse_node for a node that is not there; the node and one below it are added. *)
Definition lasked (o : bool) : viewed * panel := lhands [HNode true "Y"; HNode o "'z'"] lend.
Definition lwait (o : bool) : viewed * panel := lhands [HNode true "Y"; HNode o "'z'"; HCall (VTree (put "z" 1 None)); HCall (VTree (put "y" 1 (Some "z"))); HHand (if o then [0] else [0; 2; 7])] lend.
Definition lopen : viewed * panel := lhands [HNode true "Y"] lend.
Definition lrow_z := mkRow 7 None "z" (Some 1).
Lemma lasked_handled : forall o, handled_single keep lowest (parts (lasked o)) (snd (lasked o)).
Proof. intros o. eapply lhands_end; [|unfold lasked; reflexivity]. destruct o; vm_compute; reflexivity. Qed.
Lemma lwait_handled : forall o, handled_single keep lowest (parts (lwait o)) (snd (lwait o)).
Proof. intros o. eapply lhands_end; [|unfold lwait; reflexivity]. destruct o; vm_compute; reflexivity. Qed.
Lemma lopen_handled : handled_single keep lowest (parts lopen) (snd lopen).
Proof. eapply lhands_end; [|unfold lopen; reflexivity]. vm_compute. reflexivity. Qed.

Lemma lcase_any : faithful lowest /\ (exists k live live', address lowest k live = address lowest (S k) live') /\ handled_single keep lowest (parts (lwait false)) (snd (lwait false)) /\
  expanded (snd (lwait false)) = [0; 2; 7] /\ map r_id (rows (store (snd (lwait false)))) = ["A"; "Y"; "B"; "V"; "W"; "X"; "U"; "z"; "y"].
Proof. split; [exact lowest_fresh|]. split; [exact lowest_again|]. split; [exact (lwait_handled false)|]. split; vm_compute; reflexivity. Qed.
Lemma lcase_calls : faithful lowest /\ handled_single keep lowest (parts (lwait false)) (snd (lwait false)) /\ supported (parts (lwait false)) (VTree (DelNode "A" true)) /\
  one_parent (base_tree (fst (view_call keep (VTree (DelNode "A" true)) (parts (lwait false))))) /\ strip "'X'" <> "" /\ idle_calls (snd (lwait false)) = [("z", false)].
Proof.
  split; [exact lowest_fresh|]. split; [exact (lwait_handled false)|]. split; [apply supportedb_ok; vm_compute; reflexivity|].
  split; [apply one_parentb; vm_compute; reflexivity|]. split; [vm_compute; discriminate|]. vm_compute; reflexivity.
Qed.
Lemma lcase_expand : faithful lowest /\ handled_single keep lowest (parts lend) (snd lend) /\ strip "Y" <> "" /\ In (strip "Y") (view_all_nodes (snd (parts lend))) /\
  ~ is_open (snd lend) row_Y /\ in_sight (snd lend) row_Y /\ has_below (rows (store (snd lend))) row_Y /\ is_open (snd lopen) row_Y.
Proof.
  split; [exact lowest_fresh|]. split; [exact (lparts _ lend_handled)|]. split; [vm_compute; discriminate|]. split; [vm_compute; tauto|].
  split; [vm_compute; intuition discriminate|]. split; [vm_compute; tauto|]. split; [exists row_V; split; [vm_compute; tauto|reflexivity]|]. vm_compute; tauto.
Qed.
Lemma lcase_comes : forall o : bool, handled_single keep lowest (parts (lasked o)) (snd (lasked o)) /\ supported (parts (lasked o)) (VTree (put "z" 1 None)) /\
  In (if o then 1 else 0) (waiting (snd (parts (lasked o))) "z") /\ one_parent (base_tree (fst (lhand (HCall (VTree (put "z" 1 None))) (lasked o)))) /\
  is_displayed (snd (parts (lhand (HCall (VTree (put "z" 1 None))) (lasked o)))) "z" = true /\ idle_calls (snd (lhand (HCall (VTree (put "z" 1 None))) (lasked o))) = [("z", o)].
Proof.
  intros o. split; [exact (lasked_handled o)|]. split; [apply supportedb_ok; destruct o; vm_compute; reflexivity|]. split; [destruct o; vm_compute; tauto|].
  split; [apply one_parentb; destruct o; vm_compute; reflexivity|]. split; destruct o; vm_compute; reflexivity.
Qed.
Lemma lcase_idle : forall o : bool, handled_single keep lowest (parts (lwait o)) (snd (lwait o)) /\ idle_calls (snd (lwait o)) = [("z", o)] /\ In "z" (view_all_nodes (snd (parts (lwait o)))) /\
  (is_open (snd (lwait o)) lrow_z <-> o = false) /\ (is_open (snd (fst (run_idle (snd (parts (lwait o))) (snd (lwait o))))) lrow_z <-> o = true).
Proof.
  intros o. split; [exact (lwait_handled o)|]. split; [destruct o; vm_compute; reflexivity|]. split; [destruct o; vm_compute; tauto|].
  split; destruct o; vm_compute; intuition discriminate.
Qed.
Definition lclosed : viewed * panel := lhand (HNode false "A") lopen.
Lemma lcase_close : faithful lowest /\ handled_single keep lowest (parts lopen) (snd lopen) /\ strip "A" <> "" /\ In (strip "A") (view_all_nodes (snd (parts lopen))) /\
  is_open (snd lopen) row_A /\ is_open (snd lopen) row_Y /\ is_open (snd lopen) row_X /\ ~ is_open (snd lclosed) row_A /\ ~ is_open (snd lclosed) row_Y /\ ~ is_open (snd lclosed) row_X.
Proof.
  split; [exact lowest_fresh|]. split; [exact lopen_handled|]. split; [vm_compute; discriminate|]. split; [vm_compute; tauto|].
  do 3 (split; [vm_compute; tauto|]). do 2 (split; [vm_compute; intuition discriminate|]). vm_compute. intuition discriminate.
Qed.

(** Y is closed and loses the node below it; another is added, with the address of the
    first. *)
Definition lshut : viewed * panel := lhand (HNode false "Y") lopen.
Definition lnone : viewed * panel := lhand (HCall (VTree (DelNode "V" true))) lshut.
Definition lagain : viewed * panel := lhand (HCall (VTree (put "V" 1 (Some "Y")))) lnone.
Lemma lhand_call : forall c w, panel_call lowest keep c (fst w) (snd w) = (fst (lhand (HCall c) w), snd (lhand (HCall c) w), snd (panel_call lowest keep c (fst w) (snd w))).
Proof. intros c [x p]. cbn [fst snd lhand]. destruct (panel_call lowest keep c x p) as [[a b] r]. reflexivity. Qed.
Lemma lnone_mean : meanwhile_single keep lowest "Y" (fst lshut) (snd lshut) (fst lnone) (snd lnone).
Proof.
  eapply (msingle_call keep lowest "Y" (fst lshut) (snd lshut) (fst lshut) (snd lshut) (VTree (DelNode "V" true))); [apply msingle_start|apply supportedb_ok; vm_compute; reflexivity| |apply one_parentb; vm_compute; reflexivity].
  exact (lhand_call (VTree (DelNode "V" true)) lshut).
Qed.
Lemma lagain_mean : meanwhile_single keep lowest "Y" (fst lshut) (snd lshut) (fst lagain) (snd lagain).
Proof.
  eapply (msingle_call keep lowest "Y" (fst lshut) (snd lshut) (fst lnone) (snd lnone) (VTree (put "V" 1 (Some "Y")))); [exact lnone_mean|apply supportedb_ok; vm_compute; reflexivity| |apply one_parentb; vm_compute; reflexivity].
  exact (lhand_call (VTree (put "V" 1 (Some "Y"))) lnone).
Qed.
Lemma lshut_parts : parts lshut = fst lshut.
Proof. unfold parts. destruct lshut as [[[t b] s] p]. reflexivity. Qed.
Lemma lcase_stays : faithful lowest /\ handled_single keep lowest (parts lopen) (snd lopen) /\ rows_open (snd lopen) /\ strip "Y" = "Y" /\ In "Y" (view_all_nodes (snd (parts lopen))) /\
  collapse_node false ["Y"] (snd (parts lopen)) (snd lopen) = (snd (parts lshut), snd lshut, Ok tt) /\
  meanwhile_single keep lowest "Y" (parts lshut) (snd lshut) (fst lagain) (snd lagain) /\
  In row_Y (rows (store (snd lagain))) /\ has_below (rows (store (snd lagain))) row_Y /\ ~ is_open (snd lagain) row_Y.
Proof.
  split; [exact lowest_fresh|]. split; [exact lopen_handled|]. split.
  { intros a Ha. assert (E : expanded (snd lopen) = [0; 0; 1; 1; 2]) by (vm_compute; reflexivity). rewrite E in Ha. clear E.
    assert (R : rows (store (snd lopen)) = lrows) by (vm_compute; reflexivity). rewrite R. clear R.
    simpl in Ha. destruct Ha as [<-|[<-|[<-|[<-|[<-|[]]]]]]; [exists row_A|exists row_A|exists row_X|exists row_X|exists row_Y]; (split; [unfold lrows; simpl; tauto|reflexivity]). }
  split; [reflexivity|]. split; [vm_compute; tauto|]. split; [vm_compute; reflexivity|]. split; [rewrite lshut_parts; exact lagain_mean|].
  split; [vm_compute; tauto|]. split; [exists row_V; split; [vm_compute; tauto|reflexivity]|]. vm_compute. intuition discriminate.
Qed.

(** z is closed in a callback, loses the node below it and gets another. *)
Definition lturn : viewed * panel := lhand HIdle (lwait false).
Definition ltnone : viewed * panel := lhand (HCall (VTree (DelNode "y" true))) lturn.
Definition ltlast : viewed * panel := lhand (HCall (VTree (put "x" 1 (Some "z")))) ltnone.
Lemma ltlast_mean : meanwhile_single keep lowest "z" (fst lturn) (snd lturn) (fst ltlast) (snd ltlast).
Proof.
  eapply (msingle_call keep lowest "z" (fst lturn) (snd lturn) (fst ltnone) (snd ltnone) (VTree (put "x" 1 (Some "z")))); [|apply supportedb_ok; vm_compute; reflexivity| |apply one_parentb; vm_compute; reflexivity].
  2: exact (lhand_call (VTree (put "x" 1 (Some "z"))) ltnone).
  eapply (msingle_call keep lowest "z" (fst lturn) (snd lturn) (fst lturn) (snd lturn) (VTree (DelNode "y" true))); [apply msingle_start|apply supportedb_ok; vm_compute; reflexivity| |apply one_parentb; vm_compute; reflexivity].
  exact (lhand_call (VTree (DelNode "y" true)) lturn).
Qed.
Lemma lturn_parts : parts lturn = fst lturn.
Proof. unfold parts. destruct lturn as [[[t b] s] p]. reflexivity. Qed.
Lemma lcase_stays_idle : faithful lowest /\ handled_single keep lowest (parts (lwait false)) (snd (lwait false)) /\ rows_open (snd (lwait false)) /\
  idle_calls (snd (lwait false)) = [("z", false)] /\ In "z" (view_all_nodes (snd (parts (lwait false)))) /\
  run_idle (snd (parts (lwait false))) (snd (lwait false)) = (snd (parts lturn), snd lturn, Ok tt) /\
  meanwhile_single keep lowest "z" (parts lturn) (snd lturn) (fst ltlast) (snd ltlast) /\
  In lrow_z (rows (store (snd ltlast))) /\ has_rows 7 (store (snd ltlast)) = true /\ ~ is_open (snd ltlast) lrow_z.
Proof.
  split; [exact lowest_fresh|]. split; [exact (lwait_handled false)|].
  split; [apply rows_openb; vm_compute; reflexivity|]. split; [vm_compute; reflexivity|]. split; [vm_compute; tauto|]. split; [vm_compute; reflexivity|].
  split; [rewrite lturn_parts; exact ltlast_mean|]. split; [vm_compute; tauto|]. split; [vm_compute; reflexivity|]. vm_compute. intuition discriminate.
Qed.
