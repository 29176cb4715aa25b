(** Concrete Gtk models used by the examples and the refutation. *)
From Coq Require Import Permutation Arith.
From Verif Require Import Base BaseFacts MainTree Spec Filters FTree SpecApi SpecView SpecViewing Gtk SpecGtk GtkFacts GtkView
  Witness ApiWitness ViewWitness.

(** An allocator that gives out a new address every time. *)
Definition new_address (k : nat) (live : list nat) : nat :=
  if forallb (fun a => Nat.ltb a (2 * k)) live then 2 * k else 2 * (2 ^ k * (2 * list_max live + 1)) + 1.

(** Rows sorted by their column, the highest first. *)
Definition shown_value (r : row) : nat := match r_col r with Some v => v | None => 0 end.
Fixpoint put_row (r : row) (l : list row) : list row :=
  match l with
  | [] => [r]
  | x :: t => if Nat.leb (shown_value x) (shown_value r) then r :: x :: t else x :: put_row r t
  end.
Definition descending (_ : nat) (l : list row) : list row := fold_left (fun acc r => put_row r acc) l [].
Lemma put_row_perm : forall r l, Permutation (put_row r l) (r :: l).
Proof.
  intros r l. induction l as [|x l IH]; simpl; auto. destruct (Nat.leb _ _); auto.
  eapply Permutation_trans; [apply perm_skip; exact IH|apply perm_swap].
Qed.
Lemma descending_perm : forall k l, Permutation (descending k l) l.
Proof.
  intros k l. unfold descending.
  assert (G : forall l acc, Permutation (fold_left (fun acc r => put_row r acc) l acc) (acc ++ l)).
  { intros l0. induction l0 as [|r l0 IH]; intros acc; simpl; [rewrite app_nil_r; auto|].
    eapply Permutation_trans; [apply IH|]. eapply Permutation_trans; [apply Permutation_app_tail; apply put_row_perm|].
    simpl. apply Permutation_middle. }
  apply (G l []).
Qed.
Definition counting : platform := mkPlatform new_address descending Some.

Lemma odd_part : forall k k' m m', 2 ^ k * (2 * m + 1) = 2 ^ k' * (2 * m' + 1) -> k = k'.
Proof.
  induction k as [|k IH]; intros [|k'] m m' H; auto.
  - exfalso. rewrite Nat.pow_0_r, Nat.pow_succ_r' in H. lia.
  - exfalso. rewrite Nat.pow_0_r, Nat.pow_succ_r' in H. lia.
  - f_equal. apply (IH k' m m'). rewrite !Nat.pow_succ_r' in H. lia.
Qed.
Lemma counting_fresh : faithful counting.
Proof.
  split; [|exact descending_perm]. intros k live I. unfold counting, address, new_address in I. destruct (forallb (fun a => Nat.ltb a (2 * k)) live) eqn:E.
  - rewrite forallb_forall in E. apply E in I. apply Nat.ltb_lt in I. lia.
  - assert (H : list_max live <= list_max live) by lia. apply list_max_le in H. rewrite Forall_forall in H. apply H in I.
    assert (2 ^ k <> 0) by (apply Nat.pow_nonzero; lia). nia.
Qed.
Lemma counting_new : never_reuses counting.
Proof.
  intros k live k' live' H. unfold counting, address, new_address in H.
  destruct (forallb (fun a => Nat.ltb a (2 * k)) live), (forallb (fun a => Nat.ltb a (2 * k')) live'); try lia.
  apply (odd_part k k' (list_max live) (list_max live')). lia.
Qed.

(** An allocator that gives out the lowest free address. *)
Fixpoint lowest_from (k a : nat) (live : list nat) : nat :=
  match k with
  | 0 => a
  | S k' => if existsb (Nat.eqb a) live then lowest_from k' (S a) live else a
  end.
Definition lowest_address (_ : nat) (live : list nat) : nat := lowest_from (length live) 0 live.
Definition lowest : platform := mkPlatform lowest_address (fun _ l => l) Some.

Lemma lowest_from_spec : forall k a live, lowest_from k a live <= a + k /\
  (forall b, a <= b < lowest_from k a live -> In b live) /\
  (lowest_from k a live < a + k -> ~ In (lowest_from k a live) live).
Proof.
  induction k as [|k IH]; intros a live; cbn [lowest_from]; [split; [lia|split; [intros; lia|intros; lia]]|].
  destruct (existsb (Nat.eqb a) live) eqn:E.
  - destruct (IH (S a) live) as (A & B & C). split; [lia|]. split.
    + intros b Hb. destruct (Nat.eq_dec b a) as [->|N]; [|apply B; lia].
      apply existsb_exists in E. destruct E as (y & Iy & Ey). apply Nat.eqb_eq in Ey. subst. auto.
    + intros H. apply C. lia.
  - split; [lia|]. split; [intros; lia|]. intros _ I. rewrite <- not_true_iff_false in E. apply E. apply existsb_exists.
    exists a. split; auto. apply Nat.eqb_refl.
Qed.
Lemma lowest_fresh : faithful lowest.
Proof.
  split; [|intros; apply Permutation_refl]. intros k live I. unfold lowest, address, lowest_address in I. destruct (lowest_from_spec (length live) 0 live) as (A & B & C).
  destruct (Nat.eq_dec (lowest_from (length live) 0 live) (length live)) as [E|N]; [|apply C; auto; lia].
  rewrite E in *. assert (L : incl (seq 0 (S (length live))) live).
  { intros b Hb. apply in_seq in Hb. destruct (Nat.eq_dec b (length live)) as [->|]; auto. apply B. lia. }
  apply (NoDup_incl_length (seq_NoDup _ _)) in L. rewrite seq_length in L. lia.
Qed.

(** Several calls on a view with a connected Gtk model. *)
Fixpoint widget_calls (pf : platform) (l : list vcall) (w : viewed * gtk) : viewed * gtk :=
  match l with
  | [] => w
  | c :: rest => widget_calls pf rest (fst (widget_call keep pf c (fst w) (snd w)))
  end.
Definition watched (w : viewed * gtk) : list (nat * option nat * id * option nat) :=
  map (fun r => (r_addr r, r_parent r, r_id r, r_col r)) (rows (snd w)).
Fixpoint w_supportedsb (pf : platform) (l : list vcall) (w : viewed * gtk) : bool :=
  match l with
  | [] => true
  | c :: rest => supportedb (fst w) c && w_supportedsb pf rest (fst (widget_call keep pf c (fst w) (snd w)))
  end.
Lemma watching_calls : forall pf l w, watching keep pf (fst w) (snd w) -> w_supportedsb pf l w = true ->
  watching keep pf (fst (widget_calls pf l w)) (snd (widget_calls pf l w)).
Proof.
  intros pf. induction l as [|c l IH]; intros w V H; simpl in *; auto. apply andb_true_iff in H. destruct H as [H1 H2].
  apply IH; auto. apply supportedb_ok in H1.
  apply (watch_call keep pf _ _ _ _ _ (snd (widget_call keep pf c (fst w) (snd w))) V H1).
  destruct (widget_call keep pf c (fst w) (snd w)) as [[x g] r]. reflexivity.
Qed.
Lemma watching_connect : forall pf x, viewing keep x ->
  watching keep pf (fst (fst (connect pf x))) (snd (fst (connect pf x))).
Proof.
  intros pf x V. apply (watch_start keep pf _ _ _ (snd (connect pf x)) V). destruct (connect pf x) as [[y g] r]. reflexivity.
Qed.

(** The view of ViewWitness with a Gtk model. *)
Definition wstart : viewed * gtk := fst (connect counting vstart).
Definition wend : viewed * gtk := widget_calls counting vsteps wstart.
Lemma wend_watching : watching keep counting (fst wend) (snd wend).
Proof. apply watching_calls; [apply watching_connect; apply vstart_viewing|]. vm_compute. reflexivity. Qed.
Lemma watching_parts : forall pf x g, watching keep pf x g -> watching keep pf (fst (fst x), snd (fst x), snd x) g.
Proof. intros pf [[t b] s] g H. exact H. Qed.

Lemma case_mirror : faithful counting /\ never_reuses counting /\
  watching keep counting (fst (fst (fst wend)), snd (fst (fst wend)), snd (fst wend)) (snd wend) /\
  watched wstart = [(4, Some 2, "d", Some 2); (0, None, "a", Some 1); (2, Some 0, "b", Some 1)] /\
  watched wend = [(6, Some 0, "c", Some 5); (18, Some 10, "z", Some 3); (10, Some 6, "d", Some 2); (0, None, "a", Some 1)].
Proof.
  split; [exact counting_fresh|]. split; [exact counting_new|]. split; [exact (watching_parts _ _ _ wend_watching)|].
  split; vm_compute; reflexivity.
Qed.
Lemma case_no_exception : viewing keep vstart /\ watching keep counting (fst wend) (snd wend) /\ supported (fst wend) (VTree (DelNode "c" true)) /\
  watched (fst (widget_call keep counting (VTree (DelNode "c" true)) (fst wend) (snd wend))) = [(0, None, "a", Some 1)].
Proof.
  split; [exact vstart_viewing|]. split; [exact wend_watching|]. split; [apply supportedb_ok; vm_compute; reflexivity|].
  vm_compute. reflexivity.
Qed.

(** Signals that never put a node at two places. *)
Lemma signals_show : forall pf l cs, faithful pf -> tidy_signals [] l cs ->
  exists g, on_heard pf l new_gtk = (g, Ok tt) /\ shows (rows g) (fun p => In p cs).
Proof.
  intros pf l cs AL H.
  destruct (follows_new pf) as (L & HL & _).
  destruct (tidy_shows pf l new_gtk L [] cs AL HL H) as (g & E & L' & HL'). exists g. split; auto.
  apply (layout_shows L' g cs); auto. intros; reflexivity.
Qed.

(** Two rows change places in memory: the cached iterator of a removed row, which
    Gtk moved on to the next sibling, comes to mean another row of the same node. *)
Definition gops : list mop := [put "A" 1 None; put "B" 1 None; put "X" 1 (Some "A"); put "Y" 2 (Some "A")].
Definition gview : viewed := opened keep (hist gops) empty_bank (Some "v") [].
Lemma gview_viewing : viewing keep gview.
Proof.
  constructor. split; [apply run_calm; reflexivity|]. split; [reflexivity|]. split.
  - intros x Hx. simpl in Hx. repeat destruct Hx as [<-|Hx]; try reflexivity. destruct Hx.
  - split; [intros n f H; discriminate|]. split; [reflexivity|constructor].
Qed.
Definition gsteps : list vcall :=
  [VTree (DelNode "X" false); VTree (put "Z" 1 None); VTree (DelNode "Y" false); VTree (put "X" 1 (Some "B"));
   VTree (NewRelationship "A" "X"); VTree (BreakRelationship "A" "X")].
Definition gend : viewed * gtk := widget_calls lowest gsteps (fst (connect lowest gview)).
Lemma gend_watching : watching keep lowest (fst gend) (snd gend).
Proof. apply watching_calls; [apply watching_connect; apply gview_viewing|]. vm_compute. reflexivity. Qed.
Lemma gend_shape : watched gend = [(0, None, "A", Some 1); (3, None, "B", Some 1); (1, None, "Z", Some 1); (4, Some 0, "X", Some 1)] /\
  pars (snd (fst gend)) "X" = ["B"] /\ kids (snd (fst gend)) "A" = [].
Proof. vm_compute. auto. Qed.

Definition grows : list row := [mkRow 0 None "A" (Some 1); mkRow 3 None "B" (Some 1); mkRow 1 None "Z" (Some 1); mkRow 4 (Some 0) "X" (Some 1)].
Lemma gend_rows : rows (snd gend) = grows.
Proof. vm_compute. reflexivity. Qed.
Lemma at_path_nonempty : forall rs r l, at_path rs r l -> l <> [].
Proof. intros rs r l H. inv H; [discriminate|]. destruct l0; discriminate. Qed.
Lemma at_path_two : forall rs r x y, at_path rs r [x; y] -> In r rs /\ exists q, In q rs /\ r_id q = x /\ r_parent r = Some (r_addr q).
Proof.
  intros rs r x y H. remember [x; y] as l0 eqn:El. destruct H as [r I E|r q l I E A]; [discriminate|].
  split; auto. exists q. assert (l = [x]) as ->.
  { destruct l as [|a [|b l]]; simpl in El; [discriminate|congruence|destruct l; discriminate]. }
  remember [x] as l1 eqn:E1. destruct A as [q Iq Eq|q q' l Iq Eq A]; [inv E1; auto|].
  destruct l as [|a l]; [exfalso; eapply at_path_nonempty; eauto|destruct l; discriminate].
Qed.
Lemma grows_BX : forall r, ~ at_path grows r ["B"; "X"].
Proof.
  intros r H. apply at_path_two in H. destruct H as (I & q & Iq & Q & E). unfold grows in I, Iq. simpl in I, Iq.
  repeat destruct I as [<-|I]; try destruct I; simpl in *; try discriminate.
  repeat destruct Iq as [<-|Iq]; try destruct Iq; simpl in *; discriminate.
Qed.
Lemma reused_addresses : exists pf t b s g, faithful pf /\ watching keep pf (t, b, s) g /\
  view_path s ["B"; "X"] /\ (forall r, ~ at_path (rows g) r ["B"; "X"]) /\
  ~ view_path s ["A"; "X"] /\ exists r, at_path (rows g) r ["A"; "X"].
Proof.
  exists lowest, (fst (fst (fst gend))), (snd (fst (fst gend))), (snd (fst gend)), (snd gend).
  split; [exact lowest_fresh|]. split; [exact (watching_parts _ _ _ gend_watching)|]. rewrite gend_rows.
  split; [|split; [exact grows_BX|split]].
  - split; [discriminate|]. vm_compute. auto 10.
  - intros [_ H]. vm_compute in H. intuition discriminate.
  - exists (mkRow 4 (Some 0) "X" (Some 1)). apply (at_below grows (mkRow 4 (Some 0) "X" (Some 1)) (mkRow 0 None "A" (Some 1)) ["A"]); [unfold grows; simpl; auto 10|reflexivity|].
    apply (at_top grows (mkRow 0 None "A" (Some 1))); [unfold grows; simpl; auto|reflexivity].
Qed.
Definition gtree : mtree := hist gops.
Definition gsignals : list (mtree * sig) :=
  map (pair gtree) [SAdded "A" ["A"]; SAdded "X" ["A"; "X"]; SAdded "B" ["B"]; SModified "X" ["A"; "X"]; SDeleted "X" ["A"; "X"]; SAdded "X" ["B"; "X"]; SAdded "Y" ["B"; "X"; "Y"]].
Lemma one_place_last : forall cs, NoDup (map (fun l => last l "") cs) -> one_place cs.
Proof.
  intros cs. induction cs as [|c cs IH]; intros N l l' H H' E; [destruct H|].
  apply (proj1 (NoDup_cons_iff (last c "") (map (fun l => last l "") cs))) in N. destruct N as [N1 N2].
  destruct H as [<-|H], H' as [<-|H']; auto.
  - exfalso. apply N1. apply (eq_ind_r (fun z => In z (map (fun l => last l "") cs)) (in_map (fun l => last l "") cs l' H') E).
  - exfalso. apply N1. apply (eq_ind (last l "") (fun z => In z (map (fun l => last l "") cs)) (in_map (fun l => last l "") cs l H) (last c "") E).
  - apply IH; auto.
Qed.
Ltac one_place_tac := apply one_place_last; vm_compute; repeat (apply NoDup_cons; [simpl; intuition discriminate|]); apply NoDup_nil.
Lemma gsignals_tidy : tidy_signals [] gsignals [["A"]; ["B"]; ["B"; "X"]; ["B"; "X"; "Y"]].
Proof.
  unfold gsignals. cbn [map].
  eapply tidy_more; [one_place_tac|apply (hear_added [] [] "A"); simpl; auto|reflexivity|].
  eapply tidy_more; [one_place_tac|apply (hear_added [["A"]] ["A"] "X"); simpl; auto; intuition discriminate|reflexivity|].
  eapply tidy_more; [one_place_tac|apply (hear_added [["A"]; ["A"; "X"]] [] "B"); simpl; auto; intuition discriminate|reflexivity|].
  eapply tidy_more; [one_place_tac|apply (hear_modified [["A"]; ["A"; "X"]; ["B"]] ["A"] "X"); simpl; auto|reflexivity|].
  eapply tidy_more; [one_place_tac|apply (hear_deleted [["A"]; ["A"; "X"]; ["B"]] ["A"] "X"); [simpl; auto|intros [|y m] Hb; [congruence|simpl; intuition discriminate]]|exact I|].
  eapply tidy_more; [one_place_tac|apply (hear_added [["A"]; ["B"]] ["B"] "X"); simpl; auto; intuition discriminate|reflexivity|].
  eapply tidy_more; [one_place_tac|apply (hear_added [["A"]; ["B"]; ["B"; "X"]] ["B"; "X"] "Y"); simpl; auto; intuition discriminate|reflexivity|].
  apply tidy_none. one_place_tac.
Qed.
Lemma case_one_place : faithful lowest /\ tidy_signals [] gsignals [["A"]; ["B"]; ["B"; "X"]; ["B"; "X"; "Y"]] /\
  watched (vstart, fst (on_heard lowest gsignals new_gtk)) = [(0, None, "A", Some 1); (2, None, "B", Some 1); (1, Some 2, "X", Some 1); (3, Some 1, "Y", Some 2)].
Proof. split; [exact lowest_fresh|]. split; [exact gsignals_tidy|]. vm_compute. reflexivity. Qed.
