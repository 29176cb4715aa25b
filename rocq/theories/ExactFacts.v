(** Proofs about the cases in which a property is false. *)
From Coq Require Import Ascii ZArith.
From Verif Require Import Base BaseFacts MainTree Spec Callbacks Filters FTree ViewCount Api SpecApi ApiFacts ApiWitness SpecView FtRead
  ViewCases Columns SpecColumns ColumnFacts SpecExact.

Lemma unregister_always : forall f v, vc_unregister f v = (v, Err AttributeError).
Proof. reflexivity. Qed.

(** *** The filter bank *)
Definition plain_call (c : bcall) : bool := match c with BAdd n _ _ => negb (bang n) | _ => true end.
Lemma plain_calls_filter : forall l, plain_calls l = filter plain_call l.
Proof. induction l as [|[n f d|n|n d] l IH]; simpl; try congruence. destruct n as [|c n]; simpl; [congruence|]. destruct (Ascii.eqb c "!"); simpl; congruence. Qed.

Lemma plain_plain : forall l, plain_names (plain_calls l).
Proof.
  intros l n f d H rest ->. rewrite plain_calls_filter in H. apply filter_In in H. destruct H as [_ H]. discriminate.
Qed.

Lemma bang_absent : forall l n, plain_names l -> bang n = true -> mem n (list_filters (bank_calls l)) = false.
Proof.
  intros l n P B. apply mem_false. intros H. apply (proj2 (bank_listing l P)) in H.
  assert (G : forall l, (forall m f d, In (BAdd m f d) l -> bang m = false) -> meaning l n = None).
  { clear - B. induction l as [|[m f d|m|m [d|]] l IH]; intros P; simpl; auto.
    - rewrite IH by (intros; eapply P; right; eauto). deq m n; auto. subst. specialize (P n f d (or_introl eq_refl)). congruence.
    - rewrite IH by (intros; eapply P; right; eauto). destruct (String.eqb m n); auto.
    - rewrite IH by (intros; eapply P; right; eauto). destruct (String.eqb m n); auto.
    - apply IH. intros; eapply P; right; eauto. }
  apply H, G. intros m f d Hm. apply in_rev in Hm. eapply plain_bang; eauto.
Qed.

Lemma bank_ignored : forall l, bank_calls l = bank_calls (plain_calls l).
Proof.
  intros l. rewrite plain_calls_filter. induction l as [|c l IH] using rev_ind; auto. rewrite filter_app, bank_calls_snoc, IH. cbn [filter].
  destruct (plain_call c) eqn:P; [rewrite bank_calls_snoc; auto|]. rewrite app_nil_r. destruct c as [n f d|n|n d]; try discriminate.
  simpl in P. apply negb_false_iff in P. cbn [bank_call]. unfold add_filter. rewrite bang_absent, P; auto. rewrite <- plain_calls_filter. apply plain_plain.
Qed.

Lemma bang_add : forall l rest f d, add_filter (String "!"%char rest) f d (bank_calls l) = (bank_calls l, Err UnboundLocalError).
Proof.
  intros l rest f d. rewrite bank_ignored. unfold add_filter. rewrite bang_absent; auto. apply plain_plain.
Qed.

Definition mixed_script : list bcall := BAdd "!work" all_nodes None :: script ++ [BRemove "!work"; BAdd "!" all_nodes None].
Lemma case_mixed : plain_calls mixed_script = script ++ [BRemove "!work"] /\ bank_calls mixed_script = bank_calls script /\ mixed_script <> script.
Proof. split; [reflexivity|split; [reflexivity|discriminate]]. Qed.

(** *** Paths *)
Lemma valid_exact : forall s p, is_path_valid s p = true <-> p = [] \/ exists x q, p = x :: q /\ q <> [] /\ downward (kids s) x q.
Proof.
  intros s p. assert (V : forall q x, q <> [] -> (valid_chain s (x :: q) = true <-> downward (kids s) x q)).
  { induction q as [|y q IH]; intros x Hq; [congruence|].
    change (valid_chain s (x :: y :: q)) with (match dget x (fnodes s) with Some e => mem y (fchi e) && valid_chain s (y :: q) | None => false end).
    cbn [downward]. unfold kids at 1. destruct (dget x (fnodes s)) as [e|]; [|split; [discriminate|intros [[] _]]].
    rewrite andb_true_iff, mem_In. destruct q as [|z q]; [simpl; tauto|]. rewrite IH by discriminate. tauto. }
  destruct p as [|x [|y q]]; simpl is_path_valid.
  - tauto.
  - split; [discriminate|]. intros [H|(a & b & H & Nb & _)]; [discriminate|]. inv H. congruence.
  - change (valid_chain s (x :: y :: q) = true <-> x :: y :: q = [] \/ (exists x0 q0, x :: y :: q = x0 :: q0 /\ q0 <> [] /\ downward (kids s) x0 q0)).
    rewrite V by discriminate. split.
    + intros H. right. exists x, (y :: q). split; auto. split; [discriminate|auto].
    + intros [H|(a & b & H & _ & D)]; [discriminate|]. inv H. auto.
Qed.

(** *** Column functions *)
Lemma bg_exact : forall d w n f h num k, NoDup (map fst d) -> build_columns d = Ok w -> dget n (columns w) = Some (num, k) -> In num (cells_shown w) ->
  forall d' w', NoDup (map fst d') -> build_columns d' = Ok w' -> forall m, In m (map fst d') ->
    (value_of d' m = value_of d n -> function_of (fst (set_bg_color w n f h)) w' m = Some f) /\
    (value_of d' m <> value_of d n -> function_of (fst (set_bg_color w n f h)) w' m = function_of h w' m).
Proof.
  intros d w n f h num k ND E Hk Hs d' w' ND' E' m Hm. destruct (bg_spec d w n f h num k ND E Hk Hs) as (h' & S & _ & Oth). rewrite S. cbn [fst].
  split; [|apply (Oth d'); auto].
  assert (Hn : In n (map fst d)).
  { pose proof (build_run d ND) as X. rewrite E in X. destruct X as [B _]. apply (Permutation.Permutation_in _ (arranged_perm d)). apply (bs_columns _ _ _ B). congruence. }
  destruct (number_ref d w n ND E Hn) as (num' & k' & c & H1 & H2 & H3 & H4). rewrite Hk in H1. inversion H1; subst num' k'.
  apply H4, existsb_nat in Hs. unfold set_bg_color, set_column_function in S. rewrite Hk, Hs, H3 in S. inv S.
  destruct (number_ref d' w' m ND' E' Hm) as (num' & k' & c' & G1 & G2 & G3 & _). unfold value_of. rewrite H2, G2. intros Ev. inv Ev.
  unfold function_of. rewrite G1, G3. simpl. replace (d_value c') with (d_value c) by auto. rewrite Nat.eqb_refl. auto.
Qed.

(** *** The child of None *)
Lemma nth_none_exact : forall s i,
  view_nth_child s None i = Err (match nth_error (kids s (froot s)) i with Some _ => KeyError | None => ValueError end).
Proof.
  intros s i. unfold view_nth_child, view_n_children, kids. destruct (dget (froot s) (fnodes s)) as [e|]; cbn.
  - destruct (Nat.leb_spec (length (fchi e)) i) as [L|L]; [apply nth_error_None in L; rewrite L; auto|].
    apply nth_error_Some in L. destruct (nth_error (fchi e) i); congruence.
  - destruct i; auto.
Qed.

Lemma exclamation : forall l,
  (forall rest f d, add_filter (String "!"%char rest) f d (bank_calls l) = (bank_calls l, Err UnboundLocalError)) /\
  bank_calls l = bank_calls (plain_calls l) /\ plain_names (plain_calls l).
Proof. intros l. split; [intros; apply bang_add|]. split; [apply bank_ignored|apply plain_plain]. Qed.

Definition other_tasks : description := [("x", plain_desc None 1); ("y", plain_desc None 5)].
Lemma case_other : NoDup (map fst tasks) /\ build_columns tasks = Ok (get_ok tasks) /\ dget "color" (columns (get_ok tasks)) = Some (4, 3) /\
  In 4 (cells_shown (get_ok tasks)) /\ NoDup (map fst other_tasks) /\ build_columns other_tasks = Ok (get_ok other_tasks) /\
  value_of other_tasks "x" = value_of tasks "color" /\ value_of other_tasks "y" <> value_of tasks "color".
Proof.
  split; [exact (proj1 tasks_example)|]. split; [reflexivity|]. split; [reflexivity|]. split; [vm_compute; auto|].
  split; [cbn; repeat constructor; cbn; intuition discriminate|]. split; [vm_compute; reflexivity|]. split; [reflexivity|discriminate].
Qed.
Lemma case_valid_exact : is_path_valid (snd vshow) ["b"; "d"] = true /\ is_path_valid (snd vshow) ["b"; "c"] = false /\ is_path_valid (snd vshow) ["d"] = false.
Proof. split; [vm_compute; reflexivity|]. split; vm_compute; reflexivity. Qed.
Lemma case_nth_none : nth_error (kids (snd vshow) (froot (snd vshow))) 0 = Some "a".
Proof. vm_compute. reflexivity. Qed.
