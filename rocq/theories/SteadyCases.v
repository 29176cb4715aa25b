(** A concrete widget in which a row stays open. *)
From Verif Require Import Base BaseFacts MainTree Spec MainPaths Filters FTree SpecApi SpecView SpecViewing Gtk SpecGtk Widget SpecWidget SpecLone SpecExpand SpecExpandLone SpecSteady
  FtTree FtMind Witness ApiWitness ViewWitness GtkWitness GtkFacts WidgetWitness ExpandCases CloseCases WidgetPlaces LoneCases LoneWidget LoneWidgetCases WidgetExpandLone ExpandLoneCases LastCases.

Definition on_path (q : list id) (n : id) : bool := existsb (String.eqb n) q.
Lemma on_path_ok : forall q n, on_path q n = false -> ~ In n q.
Proof. intros q n H I. apply not_true_iff_false in H. apply H. apply existsb_exists. exists n. split; [exact I|apply String.eqb_refl]. Qed.
Fixpoint steady_okb (q : list id) (a : nat) (l : list hstep) (w : viewed * panel) : bool :=
  match l with
  | [] => true
  | u :: r =>
      match u with
      | HCall c => supportedb (fst w) c &&
          forallb (fun x => match x with SDeleted _ q' => negb (path_eqb (removelast q') q) | _ => true end) (news (snd (fst w)) (snd (fst (hand_step u w))))
      | HNode o m => o || negb (on_path q (strip m))
      | HIdle => match idle_calls (snd w) with (m, false) :: _ => negb (on_path q m) | _ => true end
      | HHand l => existsb (Nat.eqb a) l
      end && steady_okb q a r (hand_step u w)
  end.
Lemma steady_okb_ok : forall q a x0 p0 l w, steady keep counting q a x0 p0 (fst w) (snd w) -> steady_okb q a l w = true ->
  steady keep counting q a x0 p0 (fst (hand_steps l w)) (snd (hand_steps l w)).
Proof.
  intros q a x0 p0. induction l as [|u l IH]; intros w U H; cbn [hand_steps steady_okb] in *; auto. apply andb_true_iff in H. destruct H as [H1 H2].
  apply IH; auto. clear IH H2. destruct w as [[[t b] s] p]. destruct u as [c|o m| |k]; cbn [fst snd hand_step] in *.
  - apply andb_true_iff in H1. destruct H1 as [H1 H3]. apply supportedb_ok in H1.
    apply (steady_call keep counting q a x0 p0 (t, b, s) p c _ _ (snd (panel_call counting keep c (t, b, s) p))); auto.
    + destruct (panel_call counting keep c (t, b, s) p) as [[x1 p1] r1]. reflexivity.
    + apply spared. exact H3.
  - destruct (collapse_node o [m] s p) as [[s' p'] r] eqn:E. apply (steady_node keep counting q a x0 p0 o [m] t b s p s' p' r); auto.
    intros above n En ->. apply on_path_ok. apply negb_true_iff. change ([] ++ [m] = above ++ [n]) in En. apply app_inj_tail in En. destruct En as [_ <-]. exact H1.
  - destruct (run_idle s p) as [[s' p'] r] eqn:E. apply (steady_idle keep counting q a x0 p0 t b s p s' p' r); auto.
    intros n rest Z. rewrite Z in H1. apply on_path_ok. apply negb_true_iff. exact H1.
  - apply steady_user; auto. apply existsb_exists in H1. destruct H1 as (y & Hy & Ey). apply Nat.eqb_eq in Ey. subst y. exact Hy.
Qed.
Definition srest : list hstep :=
  [HCall (VTree (DelNode "a" true)); HNode false "'z'"; HNode false "f"; HCall (VTree (put "z" 1 None)); HHand [12; 34]; HIdle; HCall (VTree (DelNode "g" true)); HCall (VTree (put "k" 1 (Some "e")))].
Definition send : viewed * panel := hand_steps srest kopen.
Lemma case_steady : faithful counting /\ never_reuses counting /\ handled keep counting (parts kopen) (snd kopen) /\
  at_path (rows (store (snd kopen))) row_e ["e"] /\ is_open (snd kopen) row_e /\ has_below (rows (store (snd kopen))) row_e /\
  steady keep counting ["e"] (r_addr row_e) (parts kopen) (snd kopen) (parts send) (snd send) /\
  map r_id (rows (store (snd send))) = ["e"; "z"; "f"; "k"] /\ expanded (snd send) = [12].
Proof.
  destruct case_lasts as (A & B & H & _ & P & O & F & _). split; [exact A|]. split; [exact B|]. split; [exact H|]. split; [exact P|]. split; [exact O|]. split; [exact F|].
  split; [rewrite <- !mclosed_parts; unfold send; apply steady_okb_ok; [apply steady_start|vm_compute; reflexivity]|]. split; vm_compute; reflexivity.
Qed.

(** The same with addresses that are used again. *)
Fixpoint ssteady_okb (q : list id) (a : nat) (l : list hstep) (w : viewed * panel) : bool :=
  match l with
  | [] => true
  | u :: r =>
      match u with
      | HCall c => supportedb (fst w) c &&
          forallb (fun x => match x with SDeleted _ q' => negb (path_eqb (removelast q') q) | _ => true end) (news (snd (fst w)) (snd (fst (lhand u w))))
      | HNode o m => o || negb (on_path q (strip m))
      | HIdle => match idle_calls (snd w) with (m, false) :: _ => negb (on_path q m) | _ => true end
      | HHand l => existsb (Nat.eqb a) l
      end && loneb (base_tree (fst (lhand u w))) && ssteady_okb q a r (lhand u w)
  end.
Lemma ssteady_okb_ok : forall q a x0 p0 l w, steady_single keep lowest q a x0 p0 (fst w) (snd w) -> ssteady_okb q a l w = true ->
  steady_single keep lowest q a x0 p0 (fst (lhands l w)) (snd (lhands l w)).
Proof.
  intros q a x0 p0. induction l as [|u l IH]; intros w U H; cbn [lhands ssteady_okb] in *; auto. apply andb_true_iff in H. destruct H as [H H2].
  apply andb_true_iff in H. destruct H as [H1 H4]. apply one_parentb in H4.
  apply IH; auto. clear IH H2. destruct w as [[[t b] s] p]. destruct u as [c|o m| |k]; cbn [fst snd lhand] in *.
  - apply andb_true_iff in H1. destruct H1 as [H1 H3]. apply supportedb_ok in H1.
    apply (ssteady_call keep lowest q a x0 p0 (t, b, s) p c _ _ (snd (panel_call lowest keep c (t, b, s) p))); auto.
    + destruct (panel_call lowest keep c (t, b, s) p) as [[x1 p1] r1]. reflexivity.
    + apply spared. exact H3.
  - destruct (collapse_node o [m] s p) as [[s' p'] r] eqn:E. apply (ssteady_node keep lowest q a x0 p0 o [m] t b s p s' p' r); auto.
    intros above n En ->. apply on_path_ok. apply negb_true_iff. change ([] ++ [m] = above ++ [n]) in En. apply app_inj_tail in En. destruct En as [_ <-]. exact H1.
  - destruct (run_idle s p) as [[s' p'] r] eqn:E. apply (ssteady_idle keep lowest q a x0 p0 t b s p s' p' r); auto.
    intros n rest Z. rewrite Z in H1. apply on_path_ok. apply negb_true_iff. exact H1.
  - apply ssteady_user; auto. apply existsb_exists in H1. destruct H1 as (y & Hy & Ey). apply Nat.eqb_eq in Ey. subst y. exact Hy.
Qed.
Definition lsteps : list hstep :=
  [HCall (VTree (DelNode "B" true)); HNode false "'z'"; HNode false "V"; HCall (VTree (put "z" 1 None)); HHand [0; 34]; HIdle; HCall (VTree (DelNode "U" true)); HCall (VTree (put "k" 1 (Some "A")))].
Definition lsend : viewed * panel := lhands lsteps lopen.
Lemma lcase_steady : faithful lowest /\ handled_single keep lowest (parts lopen) (snd lopen) /\
  at_path (rows (store (snd lopen))) row_A ["A"] /\ is_open (snd lopen) row_A /\ has_below (rows (store (snd lopen))) row_A /\
  steady_single keep lowest ["A"] (r_addr row_A) (parts lopen) (snd lopen) (parts lsend) (snd lsend) /\
  map (fun r => (r_addr r, r_id r)) (rows (store (snd lsend))) = [(0, "A"); (2, "Y"); (5, "V"); (1, "X"); (3, "z"); (4, "k")] /\ expanded (snd lsend) = [0].
Proof.
  destruct lcase_lasts as (A & H & _ & _ & P & O & F & _). split; [exact A|]. split; [exact H|]. split; [exact P|]. split; [exact O|]. split; [exact F|].
  split; [rewrite <- !mclosed_parts; unfold lsend; apply ssteady_okb_ok; [apply ssteady_start|vm_compute; reflexivity]|]. split; vm_compute; reflexivity.
Qed.

(** A row that was added below the open row. *)
Definition row_k := mkRow 88 (Some 12) "k" (Some 1).
Lemma case_sight : handled keep counting (parts kopen) (snd kopen) /\ at_path (rows (store (snd kopen))) row_e ["e"] /\ is_open (snd kopen) row_e /\ has_below (rows (store (snd kopen))) row_e /\
  steady keep counting ["e"] (r_addr row_e) (parts kopen) (snd kopen) (parts send) (snd send) /\
  at_path (rows (store (snd send))) row_k (["e"] ++ ["k"]) /\ ~ In row_k (rows (store (snd kopen))) /\ in_sight (snd send) row_k.
Proof.
  destruct case_steady as (_ & _ & H & P & O & F & S & _). split; [exact H|]. split; [exact P|]. split; [exact O|]. split; [exact F|]. split; [exact S|].
  split; [apply (at_below _ row_k row_e); [vm_compute; tauto|reflexivity|apply (at_top _ row_e); [vm_compute; tauto|reflexivity]]|].
  split; [vm_compute; intuition discriminate|]. vm_compute; tauto.
Qed.
Definition lrow_k := mkRow 4 (Some 0) "k" (Some 1).
Lemma lcase_sight : handled_single keep lowest (parts lopen) (snd lopen) /\ at_path (rows (store (snd lopen))) row_A ["A"] /\ is_open (snd lopen) row_A /\ has_below (rows (store (snd lopen))) row_A /\
  steady_single keep lowest ["A"] (r_addr row_A) (parts lopen) (snd lopen) (parts lsend) (snd lsend) /\
  at_path (rows (store (snd lsend))) lrow_k (["A"] ++ ["k"]) /\ In (r_addr lrow_k) (map r_addr (rows (store (snd lopen)))) /\ in_sight (snd lsend) lrow_k.
Proof.
  destruct lcase_steady as (_ & H & P & O & F & S & _). split; [exact H|]. split; [exact P|]. split; [exact O|]. split; [exact F|]. split; [exact S|].
  split; [apply (at_below _ lrow_k row_A); [vm_compute; tauto|reflexivity|apply (at_top _ row_A); [vm_compute; tauto|reflexivity]]|].
  split; vm_compute; tauto.
Qed.
