(** Proofs about columns that share a Gtk column. *)
From Coq Require Import ZArith Sorted Permutation.
From Verif Require Import Base BaseFacts Columns SpecColumns ColumnFacts SortCol SpecSortCol SortColFacts SpecGroup.

Definition begins (d : description) (n : id) : bool := match dget n d with Some c => d_new_column c | None => false end.

Lemma groups_cons : forall d l, exists g gs, groups d l = g :: gs.
Proof.
  intros d l. induction l as [|n l (g & gs & E)]; simpl; eauto. rewrite E. destruct (dget n d) as [c|]; [destruct (d_new_column c)|]; eauto.
Qed.

Lemma groups_app : forall d l n, exists pre g, groups d l = pre ++ [g] /\
  groups d (l ++ [n]) = if begins d n then pre ++ [g; [n]] else pre ++ [g ++ [n]].
Proof.
  intros d l n. induction l as [|m l (pre & g & E1 & E2)].
  - exists [], []. split; auto. simpl. unfold begins. destruct (dget n d) as [c|]; auto.
  - simpl. rewrite E1, E2.
    assert (X : match dget m d with Some c => if d_new_column c then true else false | None => false end = begins d m) by (unfold begins; destruct (dget m d) as [c|]; auto; destruct (d_new_column c); auto).
    destruct pre as [|h pre]; simpl.
    + destruct (dget m d) as [c|]; [destruct (d_new_column c)|].
      * exists [[]], (m :: g). split; auto. destruct (begins d n); auto.
      * exists [], (m :: g). split; auto. destruct (begins d n); auto.
      * exists [], (m :: g). split; auto. destruct (begins d n); auto.
    + destruct (dget m d) as [c|]; [destruct (d_new_column c)|].
      * exists ([] :: (m :: h) :: pre), g. split; auto. destruct (begins d n); auto.
      * exists ((m :: h) :: pre), g. split; auto. destruct (begins d n); auto.
      * exists ((m :: h) :: pre), g. split; auto. destruct (begins d n); auto.
Qed.

Lemma groups_members : forall d l g n, In g (groups d l) -> In n g -> In n l.
Proof.
  intros d l. induction l as [|m l IH]; intros g n Hg Hn.
  - destruct Hg as [<-|[]]. auto.
  - simpl in Hg. destruct (groups_cons d l) as (h & gs & E). rewrite E in *.
    assert (H : g = [] \/ g = m :: h \/ In g gs) by (destruct (dget m d) as [c|]; [destruct (d_new_column c)|]; simpl in Hg; intuition).
    destruct H as [->|[->|H]]; [destruct Hn| |right; apply (IH g); auto; right; auto].
    destruct Hn as [<-|Hn]; [left; auto|right; apply (IH h); auto; left; auto].
Qed.

Lemma groups_concat : forall d l, concat (groups d l) = l.
Proof.
  intros d l. induction l as [|n l IH]; auto. simpl. destruct (groups_cons d l) as (g & gs & E). rewrite E in *.
  destruct (dget n d) as [c|]; [destruct (d_new_column c)|]; simpl; simpl in IH; rewrite IH; auto.
Qed.

Lemma visible_app : forall d g n b, group_visible d (g ++ [n]) b = match dget n d with Some c => d_visible c | None => group_visible d g b end.
Proof. intros d g. induction g as [|m g IH]; intros n b; simpl; auto. Qed.
Lemma func_app : forall d g n o, last_func d (g ++ [n]) o = match dget n d with Some c => if d_sorting_func c then Some n else last_func d g o | None => last_func d g o end.
Proof. intros d g. induction g as [|m g IH]; intros n o; simpl; auto. Qed.

Lemma place_app : forall l n m, In m l -> place_in m (l ++ [n]) = place_in m l.
Proof. intros l n m. induction l as [|x l IH]; simpl; [tauto|]. intros H. deq m x; auto. rewrite IH; auto. destruct H; [congruence|auto]. Qed.
Lemma place_new : forall l n, ~ In n l -> place_in n (l ++ [n]) = Some (S (length l)).
Proof. intros l n. induction l as [|x l IH]; simpl; [rewrite String.eqb_refl; auto|]. intros H. deq n x; [subst; tauto|]. rewrite IH by tauto. auto. Qed.
Lemma place_some : forall l n, In n l -> exists k, place_in n l = Some k.
Proof. intros l n. induction l as [|x l IH]; simpl; [tauto|]. intros H. deq n x; eauto. destruct H as [H|H]; [congruence|]. destruct (IH H) as (k & ->). simpl. eauto. Qed.

Lemma places_app : forall l n g, (forall m, In m g -> In m l) -> places (l ++ [n]) g = places l g.
Proof. intros l n g. induction g as [|m g IH]; intros H; auto. unfold places in *. cbn [flat_map]. rewrite IH by (intros; apply H; right; auto). rewrite place_app by (apply H; left; auto). auto. Qed.

(** What the loop makes of a group. *)
Definition sort_before (d : description) (l g : list id) : option nat := match last_sorting d g None with Some o => place_in o l | None => None end.
Definition tv_of (d : description) (l g : list id) : tvcolumn := mkTv (places l g) (group_visible d g true) (sort_before d l g).

Definition is_func (d : description) (n : id) : bool := match dget n d with Some c => d_sorting_func c | None => false end.
Definition funcs_of (k : nat) (fs : list (nat * nat)) : list nat := map fst (filter (fun p => Nat.eqb (snd p) k) fs).

Record grouped (d : description) (l : list id) (s : building) : Prop := {
  g_objects : objects s = map (tv_of d l) (groups d l);
  g_home : forall n num k, dget n (columns s) = Some (num, k) -> place_in n l = Some num /\ exists g, nth_error (groups d l) k = Some g /\ In n g;
  g_funcs : forall k, funcs_of k (sort_funcs s) = match nth_error (groups d l) k with Some g => places l (filter (is_func d) g) | None => [] end;
  g_sorting : forall n c o, In n l -> dget n d = Some c -> d_sorting c = Some o -> In o l
}.

Lemma last_sorting_in : forall d g o m, last_sorting d g o = Some m -> o = Some m \/ exists n c, In n g /\ dget n d = Some c /\ d_sorting c = Some m.
Proof.
  intros d g. induction g as [|n g IH]; intros o m H; simpl in H; auto.
  destruct (IH _ _ H) as [E|(x & c & H1 & H2 & H3)]; [|right; exists x, c; simpl; auto].
  destruct (dget n d) as [c|] eqn:Ec; auto. destruct (d_sorting c) as [o'|] eqn:Es; auto. inv E. right. exists n, c. simpl; auto.
Qed.

Lemma tv_of_app : forall d l n g, (forall m, In m g -> In m l) -> (forall m c o, In m l -> dget m d = Some c -> d_sorting c = Some o -> In o l) ->
  tv_of d (l ++ [n]) g = tv_of d l g.
Proof.
  intros d l n g H1 H2. unfold tv_of. f_equal; [apply places_app; auto|]. unfold sort_before.
  destruct (last_sorting d g None) as [o|] eqn:E; auto. apply place_app. apply last_sorting_in in E. destruct E as [E|(x & c & X1 & X2 & X3)]; [discriminate|]. eauto.
Qed.

Lemma change_at : forall A (f : A -> A) pre x rest, change_nth (length pre) f (pre ++ x :: rest) = pre ++ f x :: rest.
Proof. intros A f pre. induction pre as [|y pre IH]; intros x rest; simpl; auto. rewrite IH. auto. Qed.

Lemma step_groups : forall d l n c s s', built_so_far d l s -> grouped d l s -> dget n d = Some c -> ~ In n l ->
  column_step d (S (length l)) n s = Ok s' -> grouped d (l ++ [n]) s'.
Proof.
  intros d l n c s s' B G E Hn HS. destruct (groups_app d l n) as (pre & g & E1 & E2).
  unfold begins in E2. rewrite E in E2.
  assert (Mem : forall h m, In h (pre ++ [g]) -> In m h -> In m l) by (intros h m; rewrite <- E1; apply groups_members).
  pose proof (g_objects _ _ _ G) as Ob. rewrite E1, map_app in Ob. cbn [map] in Ob.
  assert (Lo : length (objects s) = S (length pre)) by (rewrite Ob, app_length, map_length; simpl; lia).
  assert (Cs : col s = length pre) by (pose proof (bs_col _ _ _ B); lia).
  unfold column_step in HS. rewrite E in HS. cbv zeta in HS. rewrite Lo, Cs in HS.
  set (k := if d_new_column c then S (length pre) else length pre) in *.
  set (num := S (length l)) in *.
  assert (Sorted : forall o, d_sorting c = Some o -> dget o (dset n (num, k) (columns s)) <> None -> In o (l ++ [n])).
  { intros o _ H. rewrite dget_dset in H. rewrite in_app_iff. deq o n; [subst; simpl; auto|]. left. apply (bs_columns _ _ _ B). auto. }
  assert (SortIn : d_sorting c = None \/ (exists o, d_sorting c = Some o /\ In o (l ++ [n])) ->
    forall m e o, In m (l ++ [n]) -> dget m d = Some e -> d_sorting e = Some o -> In o (l ++ [n])).
  { intros HO m e o Hm He Ho. apply in_app_iff in Hm. destruct Hm as [Hm|[->|[]]]; [apply in_app_iff; left; eapply (g_sorting _ _ _ G); eauto|].
    rewrite E in He. inv He. destruct HO as [HO|(o' & HO & I)]; congruence. }
  (* the groups before *)
  set (grp := if d_new_column c then [] else g).
  set (before := if d_new_column c then pre ++ [g] else pre).
  assert (E3 : groups d (l ++ [n]) = before ++ [grp ++ [n]]) by (unfold before, grp; rewrite E2; destruct (d_new_column c); rewrite <- ?app_assoc; auto).
  assert (Kb : k = length before) by (unfold k, before; destruct (d_new_column c); rewrite ?app_length; simpl; lia).
  assert (Gm : forall m, In m grp -> In m l) by (intros m; unfold grp; destruct (d_new_column c); [intros []|apply Mem; apply in_app_iff; simpl; auto]).
  assert (Bm : forall h m, In h before -> In m h -> In m l).
  { intros h m. unfold before. destruct (d_new_column c); [apply Mem|]. intros H. apply Mem. apply in_app_iff. auto. }
  assert (Old : map (tv_of d (l ++ [n])) before = map (tv_of d l) before).
  { apply map_ext_in. intros h Hh. apply tv_of_app; [intros m; apply Bm; auto|apply (g_sorting _ _ _ G)]. }
  set (obs := change_nth k (fun v => mkTv (tv_cells v ++ [num]) (d_visible c) (tv_sort v)) (if d_new_column c then objects s ++ [new_tv] else objects s)) in *.
  assert (Eo : obs = map (tv_of d l) before ++ [mkTv (places (l ++ [n]) (grp ++ [n])) (d_visible c) (sort_before d l grp)]).
  { assert (Es : (if d_new_column c then objects s ++ [new_tv] else objects s) = map (tv_of d l) before ++ [tv_of d l grp]).
    { unfold before, grp. destruct (d_new_column c); rewrite Ob; auto. rewrite map_app. auto. }
    unfold obs. rewrite Es, Kb, <- (map_length (tv_of d l) before), change_at. f_equal. f_equal. cbn [tv_of tv_cells tv_sort]. f_equal.
    unfold places at 2. rewrite flat_map_app. fold (places (l ++ [n]) grp). rewrite places_app by auto. cbn [flat_map]. rewrite place_new by auto. auto. }
  assert (Vn : group_visible d (grp ++ [n]) true = d_visible c) by (rewrite visible_app, E; auto).
  assert (Ln : last_sorting d (grp ++ [n]) None = match d_sorting c with Some o => Some o | None => last_sorting d grp None end) by (rewrite last_app, E; auto).
  set (cols := dset n (num, k) (columns s)) in *.
  assert (Home : forall m nm j, dget m cols = Some (nm, j) -> place_in m (l ++ [n]) = Some nm /\ exists h, nth_error (groups d (l ++ [n])) j = Some h /\ In m h).
  { intros m nm j H. unfold cols in H. rewrite dget_dset in H. rewrite E3. deq m n.
    - subst. inv H. split; [apply place_new; auto|]. exists (grp ++ [n]). split; [|apply in_app_iff; simpl; auto].
      rewrite nth_error_app2, Kb, Nat.sub_diag by lia. auto.
    - destruct (g_home _ _ _ G _ _ _ H) as (H1 & h & H2 & H3).
      assert (Il : In m l) by (apply (bs_columns _ _ _ B); congruence). split; [rewrite place_app; auto|].
      rewrite E1 in H2. unfold before, grp. destruct (d_new_column c).
      + exists h. split; auto. rewrite nth_error_app1; auto. apply nth_error_Some. congruence.
      + destruct (Nat.lt_ge_cases j (length pre)) as [L|L].
        * exists h. rewrite nth_error_app1 in * by auto. auto.
        * rewrite nth_error_app2 in * by auto. destruct (j - length pre) as [|i]; [|destruct i; discriminate]. inv H2. exists (h ++ [n]). split; auto. apply in_app_iff. auto. }
  set (funcs := if d_sorting_func c then sort_funcs s ++ [(num, k)] else sort_funcs s) in *.
  assert (Funcs : forall j, funcs_of j funcs = match nth_error (groups d (l ++ [n])) j with Some h => places (l ++ [n]) (filter (is_func d) h) | None => [] end).
  { intros j. assert (F0 : funcs_of j funcs = funcs_of j (sort_funcs s) ++ (if d_sorting_func c then if Nat.eqb k j then [num] else [] else [])).
    { unfold funcs, funcs_of. destruct (d_sorting_func c); [|rewrite app_nil_r; auto]. rewrite filter_app, map_app. cbn [filter snd]. destruct (Nat.eqb k j); auto. }
    rewrite F0, (g_funcs _ _ _ G). rewrite E3, E1.
    assert (Fin : forall h, (forall m, In m h -> In m l) -> places (l ++ [n]) (filter (is_func d) h) = places l (filter (is_func d) h)).
    { intros h Hh. apply places_app. intros m Hm. apply filter_In in Hm. apply Hh. tauto. }
    destruct (Nat.eqb_spec k j) as [Ej|Nj].
    - assert (Ej2 : j = length before) by congruence. rewrite Ej2, (nth_error_app2 before), Nat.sub_diag by lia. cbn [nth_error]. rewrite filter_app. unfold places at 2. rewrite flat_map_app. fold (places (l ++ [n]) (filter (is_func d) grp)).
      rewrite Fin by auto. cbn [filter]. unfold is_func at 3. rewrite E. fold (is_func d).
      assert (Old2 : match nth_error (pre ++ [g]) (length before) with Some h => places l (filter (is_func d) h) | None => [] end = places l (filter (is_func d) grp)).
      { unfold before, grp. destruct (d_new_column c); [|rewrite nth_error_app2, Nat.sub_diag by lia; auto].
        assert (N : nth_error (pre ++ [g]) (length (pre ++ [g])) = None) by (apply nth_error_None; lia). rewrite N. auto. }
      rewrite Old2. f_equal. destruct (d_sorting_func c); auto. cbn [flat_map]. rewrite place_new by auto. auto.
    - assert (Z : (if d_sorting_func c then [] else []) = @nil nat) by (destruct (d_sorting_func c); auto). rewrite Z, app_nil_r.
      unfold before, grp in *. destruct (d_new_column c).
      + destruct (Nat.lt_ge_cases j (length (pre ++ [g]))) as [L|L].
        * rewrite (nth_error_app1 (pre ++ [g])) by auto. destruct (nth_error (pre ++ [g]) j) as [h|] eqn:Eh; auto. symmetry. apply Fin. intros m. apply Mem. eapply nth_error_In; eauto.
        * assert (N1 : nth_error (pre ++ [g]) j = None) by (apply nth_error_None; lia).
          assert (N2 : nth_error ((pre ++ [g]) ++ [[] ++ [n]]) j = None) by (apply nth_error_None; assert (Q : j <> length (pre ++ [g])) by congruence; rewrite (app_length (pre ++ [g])); simpl; lia). rewrite N1, N2. auto.
      + destruct (Nat.lt_ge_cases j (length pre)) as [L|L].
        * rewrite !(nth_error_app1 pre) by auto. destruct (nth_error pre j) as [h|] eqn:Eh; auto. symmetry. apply Fin. intros m. apply Mem. apply in_app_iff. left. eapply nth_error_In; eauto.
        * assert (Q : j <> length pre) by congruence. assert (N1 : nth_error (pre ++ [g]) j = None) by (apply nth_error_None; rewrite app_length; simpl; lia).
          assert (N2 : nth_error (pre ++ [g ++ [n]]) j = None) by (apply nth_error_None; rewrite app_length; simpl; lia). rewrite N1, N2. auto. }
  destruct (d_sorting c) as [o|] eqn:Eso.
  - destruct (dget o cols) as [[sn k']|] eqn:Ec; [|discriminate]. inv HS.
    assert (Io : In o (l ++ [n])) by (apply Sorted; auto; fold cols; congruence).
    constructor; cbn [objects columns sort_funcs]; auto; [|apply SortIn; right; eauto].
    rewrite Eo, E3, map_app, Old, Kb, <- (map_length (tv_of d l) before), change_at. cbn [map tv_cells tv_visible]. f_equal. f_equal. unfold tv_of. rewrite Vn. f_equal.
    unfold sort_before. rewrite Ln. destruct (Home _ _ _ Ec) as [-> _]. auto.
  - inv HS. constructor; cbn [objects columns sort_funcs]; auto; [|apply SortIn; left; auto].
    rewrite Eo, E3, map_app, Old. cbn [map]. f_equal. f_equal. unfold tv_of. rewrite Vn. f_equal. unfold sort_before. rewrite Ln.
    destruct (last_sorting d grp None) as [o|] eqn:El; auto. symmetry. apply place_app. apply last_sorting_in in El. destruct El as [El|(x & e & X1 & X2 & X3)]; [discriminate|].
    eapply (g_sorting _ _ _ G); eauto.
Qed.

Lemma steps_groups : forall d names l s s', built_so_far d l s -> grouped d l s -> NoDup (l ++ names) -> (forall m, In m (l ++ names) -> dget m d <> None) ->
  column_steps d (S (length l)) names s = Ok s' -> grouped d (l ++ names) s'.
Proof.
  intros d names. induction names as [|n names IH]; intros l s s' B G ND HD HS; cbn [column_steps] in HS; [inv HS; rewrite app_nil_r; auto|].
  assert (Hn : ~ In n l). { apply NoDup_remove_2 in ND. intros H. apply ND. apply in_app_iff. auto. }
  destruct (dget n d) as [c|] eqn:E; [|exfalso; apply (HD n); auto; apply in_app_iff; simpl; auto].
  destruct (column_step d (S (length l)) n s) as [s1|e|] eqn:E1; try discriminate.
  assert (B1 : built_so_far d (l ++ [n]) s1) by (eapply step_keeps; eauto; intros m Hm; apply HD; apply in_app_iff; auto).
  assert (G1 : grouped d (l ++ [n]) s1) by (eapply step_groups; eauto).
  specialize (IH (l ++ [n]) s1 s' B1 G1). rewrite <- !app_assoc in IH. cbn [app] in IH. apply IH; auto. rewrite app_length, Nat.add_1_r. auto.
Qed.

Lemma start_grouped : forall d, grouped d [] start_building.
Proof.
  intros d. constructor; cbn; auto; try discriminate; try contradiction. intros [|[|k]]; auto.
Qed.

Lemma resort_at : forall fs obs k v, nth_error obs k = Some v ->
  nth_error (resort fs obs) k = Some (mkTv (tv_cells v) (tv_visible v) (last (map Some (funcs_of k fs)) (tv_sort v))).
Proof.
  induction fs as [|[num j] fs IH]; intros obs k v H; [simpl; destruct v; auto|].
  change (resort ((num, j) :: fs) obs) with (resort fs (change_nth j (fun v => mkTv (tv_cells v) (tv_visible v) (Some num)) obs)).
  unfold funcs_of. cbn [filter snd]. destruct (Nat.eqb_spec j k) as [->|N].
  - rewrite (IH _ k _ (change_same _ _ _ _ _ H)). cbn [tv_cells tv_visible tv_sort map fst]. fold (funcs_of k fs). do 2 f_equal.
    generalize (map Some (funcs_of k fs)). intros l0. destruct l0 as [|x l1]; auto. simpl.
    revert x. induction l1 as [|y l1 IH1]; intros x; auto. simpl in *. destruct l1; auto.
  - rewrite (IH _ k v) by (rewrite change_other; auto). auto.
Qed.

Lemma last_places : forall d l g t o0, (forall m, In m g -> In m l) ->
  last (map Some (places l (filter (is_func d) g))) t =
  match last_func d g o0 with Some n => if match o0 with Some _ => existsb (is_func d) g | None => true end then place_in n l else t | None => t end.
Proof.
  intros d l g t o0 H. revert o0. induction g as [|n g IH] using rev_ind; intros o0; [simpl; destruct o0; auto|].
  rewrite filter_app, func_app, existsb_app. unfold places. rewrite flat_map_app. cbn [filter existsb]. unfold is_func at 2. fold (places l (filter (is_func d) g)).
  assert (Hg : forall m, In m g -> In m l) by (intros m Hm; apply H; apply in_app_iff; auto).
  destruct (dget n d) as [c|] eqn:E; [destruct (d_sorting_func c) eqn:F|].
  - cbn [flat_map]. destruct (place_some l n) as (k & Ek); [apply H, in_app_iff; simpl; auto|]. rewrite Ek, app_nil_r, map_app. cbn [map]. rewrite last_last.
    unfold is_func at 2. rewrite E, F, orb_true_r. destruct o0; auto.
  - cbn [flat_map]. rewrite app_nil_r, (IH Hg o0). unfold is_func at 3. rewrite E, F, !orb_false_r. auto.
  - cbn [flat_map]. rewrite app_nil_r, (IH Hg o0). unfold is_func at 3. rewrite E, !orb_false_r. auto.
Qed.

(** The objects of the widget, group by group. *)
Lemma group_objects : forall d l w, NoDup (map fst d) -> in_order d l -> build_columns d = Ok w ->
  built_so_far d l w /\
  (forall k, nth_error (objects w) k = option_map (fun g => mkTv (places l g) (group_visible d g true) (group_sort d l g)) (nth_error (groups d l) k)) /\
  (forall n num k, dget n (columns w) = Some (num, k) -> exists g, nth_error (groups d l) k = Some g /\ In n g).
Proof.
  intros d l w ND IO E. rewrite (in_order_arranged d l ND IO). pose proof (build_run d ND) as X. rewrite E in X. destruct X as [B _]. split; auto.
  unfold build_columns in E. fold (arranged d) in E.
  assert (H1 : NoDup (arranged d)) by (rewrite arranged_perm; auto).
  assert (H2 : forall m, In m (arranged d) -> dget m d <> None).
  { intros m Hm. apply (Permutation_in _ (arranged_perm d)) in Hm. apply named. exact Hm. }
  destruct (column_steps d 1 (arranged d) start_building) as [s|e|] eqn:Es; try discriminate. inv E.
  assert (G : grouped d (arranged d) s) by (apply (steps_groups d (arranged d) [] start_building s); auto; [apply start_ok|apply start_grouped]).
  cbn [objects columns]. split; [|intros n num k H; apply (g_home _ _ _ G) in H; tauto].
  intros k. change (fold_left _ (sort_funcs s) (objects s)) with (resort (sort_funcs s) (objects s)).
  destruct (nth_error (groups d (arranged d)) k) as [g|] eqn:Eg; cbn [option_map].
  - assert (Ek : nth_error (objects s) k = Some (tv_of d (arranged d) g)) by (rewrite (g_objects _ _ _ G), <- nth_map, Eg; auto).
    rewrite (resort_at _ _ _ _ Ek), (g_funcs _ _ _ G), Eg. cbn [tv_of tv_cells tv_visible tv_sort]. do 2 f_equal.
    rewrite (last_places d (arranged d) g _ None) by (intros m; apply (groups_members d (arranged d) g); eapply nth_error_In; eauto).
    unfold group_sort. destruct (last_func d g None); auto.
  - apply nth_error_None. destruct (resort_same (sort_funcs s) (objects s)) as [R _]. rewrite <- (map_length tv_cells), R, map_length, (g_objects _ _ _ G), map_length. apply nth_error_None. auto.
Qed.

Lemma nth_seq : forall A (l : list A) x, flat_map (fun k => match nth_error (x :: l) k with Some v => [v] | None => [] end) (seq 1 (length l)) = l.
Proof.
  intros A l x. assert (G : forall pre, flat_map (fun k => match nth_error (pre ++ l) k with Some v => [v] | None => [] end) (seq (length pre) (length l)) = l).
  { induction l as [|y l IH]; intros pre; auto. cbn [length seq flat_map]. rewrite nth_error_app2, Nat.sub_diag by lia. cbn [nth_error app]. f_equal.
    specialize (IH (pre ++ [y])). rewrite <- app_assoc, app_length, Nat.add_1_r in IH. exact IH. }
  exact (G [x]).
Qed.

Lemma nth_all : forall A (l l' : list A), (forall k, nth_error l k = nth_error l' k) -> l = l'.
Proof.
  intros A l. induction l as [|x l IH]; intros [|y l'] H; auto; try (specialize (H 0); discriminate).
  f_equal; [specialize (H 0); inversion H; auto|]. apply IH. intros k. apply (H (S k)).
Qed.

Lemma gtk_exact : forall d l w, NoDup (map fst d) -> in_order d l -> build_columns d = Ok w ->
  gtk_columns w = map (fun g => mkTv (places l g) (group_visible d g true) (group_sort d l g)) (tl (groups d l)).
Proof.
  intros d l w ND IO E. destruct (group_objects d l w ND IO E) as (B & O & _).
  assert (Eo : objects w = map (fun g => mkTv (places l g) (group_visible d g true) (group_sort d l g)) (groups d l)) by (apply nth_all; intros k; rewrite O, nth_map; auto).
  unfold gtk_columns. rewrite (bs_app _ _ _ B). pose proof (bs_col _ _ _ B) as C. rewrite Eo in *. destruct (groups_cons d l) as (g & gs & Eg). rewrite Eg in *. cbn [map tl] in *.
  assert (C1 : col w = length (map (fun g => mkTv (places l g) (group_visible d g true) (group_sort d l g)) gs)) by (simpl in C; lia). rewrite C1. apply nth_seq.
Qed.

Lemma group_unique : forall d l k k' g g' n, NoDup l -> nth_error (groups d l) k = Some g -> nth_error (groups d l) k' = Some g' -> In n g -> In n g' -> k = k' /\ g = g'.
Proof.
  intros d l k k' g g' n ND. rewrite <- (groups_concat d l) in ND. revert ND. generalize (groups d l). intros gs. revert k k'.
  induction gs as [|h gs IH]; intros k k' ND H1 H2 I1 I2; [destruct k; discriminate|]. simpl in ND.
  assert (Dis : forall x, In n h -> In x gs -> In n x -> False).
  { intros x Hh Hx Hn. clear IH H1 H2. induction h as [|y h IHh]; [destruct Hh|]. simpl in ND. inversion ND as [|z zs Z1 Z2]; subst.
    destruct Hh as [->|Hh]; [|apply IHh; auto]. apply Z1, in_app_iff. right. apply in_concat. eauto. }
  assert (ND' : NoDup (concat gs)) by (clear - ND; induction h as [|y h IHh]; auto; inversion ND; auto).
  destruct k as [|k], k' as [|k']; simpl in H1, H2.
  - split; congruence.
  - inv H1. exfalso. apply (Dis g'); auto. eapply nth_error_In; eauto.
  - inv H2. exfalso. apply (Dis g); auto. eapply nth_error_In; eauto.
  - destruct (IH k k' ND' H1 H2 I1 I2). auto.
Qed.

Lemma group_member : forall d l w g n, NoDup (map fst d) -> in_order d l -> build_columns d = Ok w -> In g (groups d l) -> In n g ->
  exists num k, dget n (columns w) = Some (num, k) /\ nth_error (groups d l) k = Some g.
Proof.
  intros d l w g n ND IO E Hg Hn. destruct (group_objects d l w ND IO E) as (B & O & H).
  assert (Il : In n l) by (eapply groups_members; eauto). assert (NL : NoDup l) by (destruct IO as [P _]; rewrite P; auto).
  destruct (dget n (columns w)) as [[num k]|] eqn:En; [|exfalso; apply (bs_columns _ _ _ B) in Il; congruence].
  destruct (H n num k En) as (g' & G1 & G2). apply In_nth_error in Hg. destruct Hg as (k' & G3). destruct (group_unique d l k k' g' g n NL G1 G3 G2 Hn) as [_ <-]. eauto.
Qed.

Lemma group_look : forall d l w g n, NoDup (map fst d) -> in_order d l -> build_columns d = Ok w -> In g (groups d l) -> In n g ->
  visible_in w n = Some (group_visible d g true) /\ header w n = group_sort d l g.
Proof.
  intros d l w g n ND IO E Hg Hn. destruct (group_member d l w g n ND IO E Hg Hn) as (num & k & E1 & E2). destruct (group_objects d l w ND IO E) as (_ & O & _).
  unfold visible_in, header. rewrite E1, O, E2. auto.
Qed.

Lemma group_set : forall d l w g n v, NoDup (map fst d) -> in_order d l -> build_columns d = Ok w -> In g (groups d l) -> In n g ->
  exists w', set_col_visible n v w = Ok w' /\
    (forall m, In m l -> visible_in w' m = if mem m g then Some v else visible_in w m) /\
    map tv_cells (gtk_columns w') = map tv_cells (gtk_columns w) /\ forall m, header w' m = header w m.
Proof.
  intros d l w g n v ND IO E Hg Hn. destruct (group_member d l w g n ND IO E Hg Hn) as (num & k & E1 & E2). destruct (group_objects d l w ND IO E) as (B & O & H).
  assert (NL : NoDup l) by (destruct IO as [P _]; rewrite P; auto).
  unfold set_col_visible. rewrite E1. eexists. split; [reflexivity|].
  set (f := fun o => mkTv (tv_cells o) v (tv_sort o)).
  assert (Same : forall B (h : tvcolumn -> B), (forall x, h (f x) = h x) -> forall j, option_map h (nth_error (change_nth k f (objects w)) j) = option_map h (nth_error (objects w) j)).
  { intros B0 h Hh j. rewrite !nth_map, change_map; auto. }
  unfold visible_in, gtk_columns, header. cbn [columns objects appended]. split; [|split].
  - intros m Hm. destruct (dget m (columns w)) as [[num' k']|] eqn:Em; [|exfalso; apply (bs_columns _ _ _ B) in Hm; congruence].
    destruct (H _ _ _ Em) as (g' & G1 & G2). destruct (mem m g) eqn:Mg.
    + apply mem_In in Mg. destruct (group_unique d l k k' g g' m NL E2 G1 Mg G2) as [<- <-].
      assert (Ek : nth_error (objects w) k = Some (mkTv (places l g) (group_visible d g true) (group_sort d l g))) by (rewrite O, E2; auto).
      rewrite (change_same _ f _ _ _ Ek). auto.
    + rewrite change_other; auto. intros ->. rewrite E2 in G1. inv G1. apply mem_false in Mg. auto.
  - induction (appended w) as [|j js IH]; auto. cbn [flat_map]. rewrite !map_app, IH. f_equal. specialize (Same _ tv_cells (fun _ => eq_refl) j).
    destruct (nth_error (change_nth k f (objects w)) j), (nth_error (objects w) j); simpl in *; congruence.
  - intros m. destruct (dget m (columns w)) as [[num' k']|]; auto. specialize (Same _ tv_sort (fun _ => eq_refl) k').
    destruct (nth_error (change_nth k f (objects w)) k'), (nth_error (objects w) k'); simpl in *; congruence.
Qed.

(** *** Cases *)
Definition shelf : description :=
  [("lost", mkDesc None 0 false true None false); ("title", mkDesc None 1 true true None true); ("color", mkDesc None 2 false false (Some "title") false);
   ("date", mkDesc None 3 true false (Some "date") false); ("tags", mkDesc None 4 false true (Some "title") false); ("count", mkDesc None 5 false true None false)].
Definition shelf_order : list id := ["lost"; "title"; "color"; "date"; "tags"; "count"].
Lemma case_shelf : NoDup (map fst shelf) /\ in_order shelf shelf_order /\ build_columns shelf = Ok (get_ok shelf) /\
  groups shelf shelf_order = [["lost"]; ["title"; "color"]; ["date"; "tags"; "count"]] /\
  gtk_columns (get_ok shelf) = [mkTv [2; 3] false (Some 2); mkTv [4; 5; 6] true (Some 2)].
Proof.
  assert (ND : NoDup (map fst shelf)) by (cbn; repeat constructor; cbn; intuition discriminate).
  split; [exact ND|]. split; [exact (arranged_ok shelf ND)|].
  split; [vm_compute; reflexivity|]. split; vm_compute; reflexivity.
Qed.

Lemma case_group : NoDup (map fst shelf) /\ in_order shelf shelf_order /\ build_columns shelf = Ok (get_ok shelf) /\
  In ["date"; "tags"; "count"] (groups shelf shelf_order) /\
  group_visible shelf ["date"; "tags"; "count"] true = true /\ group_sort shelf shelf_order ["date"; "tags"; "count"] = Some 2.
Proof.
  destruct case_shelf as (H1 & H2 & H3 & H4 & _). split; auto. split; auto. split; auto. rewrite H4. split; [simpl; auto|]. split; vm_compute; reflexivity.
Qed.
Lemma case_set : NoDup (map fst shelf) /\ in_order shelf shelf_order /\ build_columns shelf = Ok (get_ok shelf) /\
  In ["title"; "color"] (groups shelf shelf_order) /\ visible_in (get_ok shelf) "title" = Some false /\ visible_in (get_ok shelf) "date" = Some true.
Proof.
  destruct case_shelf as (H1 & H2 & H3 & H4 & _). split; auto. split; auto. split; auto. rewrite H4. split; [simpl; auto|]. split; vm_compute; reflexivity.
Qed.
