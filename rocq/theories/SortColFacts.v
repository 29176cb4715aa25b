(** Proofs about the sort column. *)
From Coq Require Import ZArith Sorted Permutation.
From Verif Require Import Base BaseFacts Columns SpecColumns ColumnFacts SortCol SpecSortCol.

Lemma place_nth : forall l i n, NoDup l -> nth_error l i = Some n -> place_in n l = Some (S i).
Proof.
  intros l. induction l as [|m l IH]; intros [|i] n ND H; simpl in *; try discriminate.
  - inversion H; subst. rewrite String.eqb_refl. auto.
  - inversion ND; subst. rewrite (IH i n); auto. deq n m; auto. subst. exfalso. apply H2. apply nth_error_In in H. auto.
Qed.
Lemma place_none : forall l n, ~ In n l -> place_in n l = None.
Proof. intros l n. induction l as [|m l IH]; simpl; auto. intros H. rewrite IH by tauto. deq n m; auto. subst. tauto. Qed.

Lemma build_numbers : forall d w n, NoDup (map fst d) -> build_columns d = Ok w -> option_map fst (dget n (columns w)) = place_in n (arranged d).
Proof.
  intros d w n ND E. pose proof (build_run d ND) as X. rewrite E in X. destruct X as [B _].
  assert (NA : NoDup (arranged d)) by (rewrite arranged_perm; auto).
  destruct (in_dec id_dec n (arranged d)) as [I|I].
  - apply In_nth_error in I. destruct I as (i & Hi). destruct (bs_number _ _ _ B i n Hi) as (k & -> & _). rewrite (place_nth _ i n NA Hi). auto.
  - rewrite (place_none _ _ I). destruct (dget n (columns w)) as [p|] eqn:Ep; auto. exfalso. apply I. apply (bs_columns _ _ _ B). congruence.
Qed.

(** *** The loop *)
Record sorted_so_far (d : description) (l : list id) (s : building) : Prop := {
  ss_names : map fst (columns s) = l;
  ss_last : sort_col s = last_sorting d l None;
  ss_home : forall n num k, dget n (columns s) = Some (num, k) -> exists v, nth_error (objects s) k = Some v /\ In num (tv_cells v);
  ss_funcs : (forall n c, In n l -> dget n d = Some c -> d_new_column c = true) ->
    forall p, In p (sort_funcs s) <-> exists i n c, nth_error l i = Some n /\ dget n d = Some c /\ d_sorting_func c = true /\ p = (S i, S i);
  ss_sort : (forall n c, In n l -> dget n d = Some c -> d_new_column c = true) ->
    forall i n c, nth_error l i = Some n -> dget n d = Some c -> exists v, nth_error (objects s) (S i) = Some v /\
      match d_sorting c with
      | Some o => exists num k, dget o (columns s) = Some (num, k) /\ tv_sort v = Some num
      | None => tv_sort v = None
      end
}.

Lemma last_app : forall d l n o, last_sorting d (l ++ [n]) o =
  match dget n d with Some c => match d_sorting c with Some m => Some m | None => last_sorting d l o end | None => last_sorting d l o end.
Proof. intros d l. induction l as [|m l IH]; intros n o; simpl; auto. Qed.

Lemma dset_new_keys : forall (n : id) (v : nat * nat) l, ~ In n (map fst l) -> map fst (dset n v l) = map fst l ++ [n].
Proof. intros n v l. induction l as [|[k x] l IH]; simpl; auto. intros H. deq n k; [subst; tauto|]. simpl. rewrite IH by tauto. auto. Qed.

Lemma step_sorts : forall d l n c s s', built_so_far d l s -> sorted_so_far d l s -> dget n d = Some c -> ~ In n l -> (forall m, In m l -> dget m d <> None) ->
  column_step d (S (length l)) n s = Ok s' -> sorted_so_far d (l ++ [n]) s'.
Proof.
  intros d l n c s s' B S E Hn HD HS. pose proof (step_run d (Datatypes.S (length l)) n c s E (bs_col _ _ _ B)) as X. rewrite HS in X. cbv zeta in X.
  destruct X as (_ & _ & _ & _ & Eco & _).
  assert (Ln : forall m, In m (l ++ [n]) <-> In m l \/ m = n) by (intros m; rewrite in_app_iff; simpl; intuition congruence).
  unfold column_step in HS. rewrite E in HS. cbv zeta in HS.
  set (k := if d_new_column c then length (objects s) else col s) in *.
  set (obs := change_nth k (fun v => mkTv (tv_cells v ++ [Datatypes.S (length l)]) (d_visible c) (tv_sort v)) (if d_new_column c then objects s ++ [new_tv] else objects s)) in *.
  set (cols := dset n (Datatypes.S (length l), k) (columns s)) in *.
  set (funcs := if d_sorting_func c then sort_funcs s ++ [(Datatypes.S (length l), k)] else sort_funcs s) in *.
  assert (Cn : dget n cols = Some (Datatypes.S (length l), k)) by (unfold cols; rewrite dget_dset, String.eqb_refl; auto).
  assert (Co : forall m p, dget m (columns s) = Some p -> dget m cols = Some p).
  { intros m p Hm. unfold cols. rewrite dget_dset. deq m n; auto. subst. exfalso. apply Hn. apply (bs_columns _ _ _ B). congruence. }
  assert (Names : map fst cols = l ++ [n]).
  { unfold cols. rewrite dset_new_keys; rewrite (ss_names _ _ _ S); auto. }
  (* what the new widget is *)
  assert (Z : exists so, s' = mkBuilding (match d_sorting c with
        | Some o => match dget o cols with Some (sn, _) => change_nth k (fun v => mkTv (tv_cells v) (tv_visible v) (Some sn)) obs | None => obs end
        | None => obs end) k (if d_new_column c then appended s ++ [k] else appended s) cols (types s ++ [d_value c]) so funcs /\
      so = match d_sorting c with Some m => Some m | None => sort_col s end /\ forall o, d_sorting c = Some o -> dget o cols <> None).
  { destruct (d_sorting c) as [o|]; [|inversion HS; subst; eexists; split; [reflexivity|split; [auto|discriminate]]].
    destruct (dget o cols) as [[sn k']|] eqn:Eo; [|discriminate]. inversion HS; subst. eexists. split; [reflexivity|]. split; auto.
    intros o' H. inversion H; subst. congruence. }
  destruct Z as (so & -> & Eso & Kn). clear HS Eco.
  assert (New : (forall m e, In m (l ++ [n]) -> dget m d = Some e -> d_new_column e = true) ->
     (forall m e, In m l -> dget m d = Some e -> d_new_column e = true) /\ k = Datatypes.S (length l) /\ length (objects s) = Datatypes.S (length l) /\
     obs = objects s ++ [mkTv [Datatypes.S (length l)] (d_visible c) None]).
  { intros HA. assert (HL : forall m e, In m l -> dget m d = Some e -> d_new_column e = true) by (intros m e I; apply HA; apply Ln; auto).
    assert (Nc : d_new_column c = true) by (apply (HA n); auto; apply Ln; auto).
    destruct (bs_visible _ _ _ B HL) as [Cl _]. pose proof (bs_col _ _ _ B) as Cb. rewrite Cl in Cb. split; auto.
    unfold k, obs, k. rewrite Nc. split; auto. split; auto. rewrite change_last. auto. }
  constructor; cbn [columns sort_col sort_funcs objects].
  - exact Names.
  - rewrite last_app, E, Eso, (ss_last _ _ _ S). auto.
  - intros m num k' Hm. unfold cols in Hm. rewrite dget_dset in Hm.
    assert (Ho : exists v, nth_error obs k' = Some v /\ In num (tv_cells v)).
    { set (base := if d_new_column c then objects s ++ [new_tv] else objects s) in *. set (f := fun v => mkTv (tv_cells v ++ [Datatypes.S (length l)]) (d_visible c) (tv_sort v)) in *.
      pose proof (bs_col _ _ _ B) as Cb. deq m n.
      - inversion Hm; subst num k'. assert (Hb : exists v, nth_error base k = Some v).
        { destruct (nth_error base k) as [v|] eqn:Ev; eauto. exfalso. apply nth_error_None in Ev. unfold base, k in Ev. destruct (d_new_column c); rewrite ?app_length in Ev; simpl in Ev; lia. }
        destruct Hb as (v & Hv). exists (f v). split; [apply change_same; auto|]. simpl. apply in_app_iff. simpl. auto.
      - destruct (ss_home _ _ _ S m num k' Hm) as (v & V1 & V2).
        assert (Hb : nth_error base k' = Some v).
        { unfold base. destruct (d_new_column c); auto. rewrite nth_error_app1; auto. apply nth_error_Some. congruence. }
        destruct (Nat.eq_dec k' k) as [->|Nk]; [exists (f v); split; [apply change_same; auto|simpl; apply in_app_iff; auto]|exists v; split; auto; unfold obs; rewrite change_other; auto]. }
    destruct Ho as (v & V1 & V2). destruct (d_sorting c) as [o|]; [|eauto]. destruct (dget o cols) as [[sn k2]|]; [|eauto].
    destruct (Nat.eq_dec k' k) as [->|Nk]; [eexists; split; [apply (change_same _ _ _ _ _ V1)|auto]|exists v; split; auto; rewrite change_other; auto].
  - intros HA p. destruct (New HA) as (HL & Ek & _ & _).
    assert (Old : In p (sort_funcs s) <-> exists i m e, nth_error l i = Some m /\ dget m d = Some e /\ d_sorting_func e = true /\ p = (Datatypes.S i, Datatypes.S i)) by (apply (ss_funcs _ _ _ S HL)).
    assert (Sp : In p funcs <-> In p (sort_funcs s) \/ (d_sorting_func c = true /\ p = (Datatypes.S (length l), Datatypes.S (length l)))).
    { unfold funcs. rewrite Ek. destruct (d_sorting_func c); [rewrite in_app_iff; simpl; intuition congruence|intuition congruence]. }
    rewrite Sp, Old. split.
    + intros [(i & m & e & H1 & H2 & H3 & H4)|[H3 H4]].
      * exists i, m, e. split; auto. rewrite nth_error_app1; auto. apply nth_error_Some. congruence.
      * exists (length l), n, c. split; auto. rewrite nth_error_app2, Nat.sub_diag by lia. auto.
    + intros (i & m & e & H1 & H2 & H3 & H4). destruct (Nat.lt_ge_cases i (length l)) as [Hi|Hi].
      * left. rewrite nth_error_app1 in H1 by auto. eauto 10.
      * rewrite nth_error_app2 in H1 by auto. destruct (i - length l) as [|j] eqn:Ej; simpl in H1; [|destruct j; discriminate].
        inversion H1; subst m. rewrite E in H2. inversion H2; subst e. right. split; auto. subst p. do 2 f_equal; lia.
  - intros HA i m e H1 H2. destruct (New HA) as (HL & Ek & Lo & Eobs).
    destruct (Nat.lt_ge_cases i (length l)) as [Hi|Hi].
    + rewrite nth_error_app1 in H1 by auto. destruct (ss_sort _ _ _ S HL i m e H1 H2) as (v & V1 & V2). exists v. split.
      * assert (Ob : nth_error obs (Datatypes.S i) = Some v) by (rewrite Eobs, nth_error_app1; auto; lia).
        destruct (d_sorting c) as [o|]; auto. destruct (dget o cols) as [[sn k']|]; auto. rewrite change_other; auto. lia.
      * destruct (d_sorting e) as [o|]; auto. destruct V2 as (num & k' & V3 & V4). exists num, k'. split; auto.
    + rewrite nth_error_app2 in H1 by auto. destruct (i - length l) as [|j] eqn:Ej; simpl in H1; [|destruct j; discriminate].
      inversion H1; subst m. rewrite E in H2. inversion H2; subst e. assert (i = length l) by lia. subst i.
      assert (Ob : nth_error obs k = Some (mkTv [Datatypes.S (length l)] (d_visible c) None)).
      { rewrite Eobs, Ek, nth_error_app2, Lo, Nat.sub_diag by lia. auto. }
      rewrite <- Ek. destruct (d_sorting c) as [o|] eqn:Eo.
      * specialize (Kn o eq_refl). destruct (dget o cols) as [[sn k']|] eqn:Ec; [|congruence]. eexists. split; [apply (change_same _ _ _ _ _ Ob)|].
        exists sn, k'. split; auto.
      * eexists. split; [exact Ob|]. auto.
Qed.

Lemma steps_sort : forall d names l s s', built_so_far d l s -> sorted_so_far d l s -> NoDup (l ++ names) -> (forall m, In m (l ++ names) -> dget m d <> None) ->
  column_steps d (S (length l)) names s = Ok s' -> sorted_so_far d (l ++ names) s'.
Proof.
  intros d names. induction names as [|n names IH]; intros l s s' B S ND HD E; cbn [column_steps] in E.
  - inversion E; subst. rewrite app_nil_r. auto.
  - destruct (column_step d (Datatypes.S (length l)) n s) as [s1|e|] eqn:E1; try discriminate.
    assert (Hn : ~ In n l). { apply NoDup_remove_2 in ND. intros H. apply ND. apply in_app_iff. auto. }
    destruct (dget n d) as [c|] eqn:Ec; [|exfalso; apply (HD n); auto; apply in_app_iff; simpl; auto].
    assert (HDl : forall m, In m l -> dget m d <> None) by (intros m Hm; apply HD; apply in_app_iff; auto).
    assert (B1 : built_so_far d (l ++ [n]) s1) by (eapply step_keeps; eauto).
    assert (S1 : sorted_so_far d (l ++ [n]) s1) by (eapply step_sorts; eauto).
    specialize (IH (l ++ [n]) s1 s' B1 S1). rewrite <- app_assoc in IH. simpl in IH. rewrite app_length, Nat.add_1_r in IH. apply IH; auto.
Qed.

Lemma build_sorts : forall d w, NoDup (map fst d) -> build_columns d = Ok w ->
  exists s, sorted_so_far d (arranged d) s /\ w = mkBuilding (resort (sort_funcs s) (objects s)) (col s) (appended s) (columns s) (types s) (sort_col s) (sort_funcs s).
Proof.
  intros d w ND E. unfold build_columns in E. fold (arranged d) in E. destruct (column_steps d 1 (arranged d) start_building) as [s|e|] eqn:Es; try discriminate.
  inversion E; subst. exists s. split; auto. apply (steps_sort d (arranged d) [] start_building s); auto.
  - apply start_ok.
  - constructor; cbn; auto; [discriminate|intros _ p; split; [intros []|intros ([|i] & n & c & H & _); discriminate]|intros _ [|i]; discriminate].
  - simpl. rewrite arranged_perm; auto.
  - intros m Hm. simpl in Hm. apply (Permutation_in _ (arranged_perm d)) in Hm. apply named. auto.
Qed.

Lemma names_spec : forall d l w, NoDup (map fst d) -> in_order d l -> build_columns d = Ok w ->
  get_columns w = l /\
  (forall n, set_main_search_column w n = match place_in n l with Some num => Ok num | None => Err KeyError end) /\
  (forall n, match set_expander_column w n with
             | Ok k => exists v num, nth_error (objects w) k = Some v /\ place_in n l = Some num /\ In num (tv_cells v)
             | r => r = Err KeyError /\ ~ In n l
             end).
Proof.
  intros d l w ND IO E. rewrite (in_order_arranged d l ND IO). pose proof (build_numbers d w) as Nu.
  destruct (build_sorts d w ND E) as (s & S & Ew). split; [rewrite Ew; exact (ss_names _ _ _ S)|].
  split.
  - intros n. rewrite <- (Nu n ND E). unfold set_main_search_column. destruct (dget n (columns w)) as [[num k]|]; auto.
  - intros n. specialize (Nu n ND E). unfold set_expander_column. destruct (dget n (columns w)) as [[num k]|] eqn:Ek.
    + rewrite Ew in Ek. cbn [columns] in Ek. destruct (ss_home _ _ _ S n num k Ek) as (v & V1 & V2).
      destruct (resort_same (sort_funcs s) (objects s)) as [R _].
      assert (X : option_map tv_cells (nth_error (objects w) k) = Some (tv_cells v)).
      { rewrite Ew. cbn [objects]. rewrite <- nth_error_map, R, nth_error_map, V1. auto. }
      destruct (nth_error (objects w) k) as [v'|]; [|discriminate]. simpl in X. inversion X as [X']. exists v', num. rewrite X'. auto.
    + split; auto. intros I. apply In_nth_error in I. destruct I as (i & Hi). rewrite (place_nth _ i n) in Nu; auto; [discriminate|]. rewrite arranged_perm; auto.
Qed.

Lemma initial_spec : forall d l w, NoDup (map fst d) -> in_order d l -> build_columns d = Ok w ->
  get_sort_column (start_sorting w) = (last_sorting d l None, ascending).
Proof.
  intros d l w ND IO E. rewrite (in_order_arranged d l ND IO). destruct (build_sorts d w ND E) as (s & S & ->). unfold get_sort_column, start_sorting. cbn.
  rewrite (ss_last _ _ _ S). auto.
Qed.

Lemma resort_nth : forall fs obs j v, (forall p, In p fs -> fst p = snd p) -> nth_error obs j = Some v ->
  exists v', nth_error (resort fs obs) j = Some v' /\
    ((In (j, j) fs /\ tv_sort v' = Some j) \/ (~ In (j, j) fs /\ tv_sort v' = tv_sort v)).
Proof.
  intros fs. induction fs as [|[a b] fs IH]; intros obs j v HF Hv; [exists v; auto|].
  pose proof (HF (a, b) (or_introl eq_refl)) as Eab. simpl in Eab. subst b. unfold resort in *. cbn [fold_left].
  destruct (Nat.eq_dec a j) as [->|N].
  - destruct (IH (change_nth j (fun v => mkTv (tv_cells v) (tv_visible v) (Some j)) obs) j (mkTv (tv_cells v) (tv_visible v) (Some j))) as (v' & V1 & V2).
    { intros p Hp. apply HF. right. auto. }
    { apply (change_same _ (fun v => mkTv (tv_cells v) (tv_visible v) (Some j)) _ _ _ Hv). }
    exists v'. split; auto. left. split; [left; auto|]. destruct V2 as [[_ V2]|[_ V2]]; rewrite V2; auto.
  - destruct (IH (change_nth a (fun v => mkTv (tv_cells v) (tv_visible v) (Some a)) obs) j v) as (v' & V1 & V2).
    { intros p Hp. apply HF. right. auto. }
    { rewrite change_other; auto. }
    exists v'. split; auto. destruct V2 as [[V2 V3]|[V2 V3]]; [left; split; [right; auto|auto]|right; split; [intros [H|H]; [inversion H; auto|auto]|auto]].
Qed.

Lemma headers_spec : forall d l w, NoDup (map fst d) -> in_order d l -> build_columns d = Ok w -> (forall n c, In (n, c) d -> d_new_column c = true) ->
  forall n, In n l -> header w n = match sorts_by d n with Some o => place_in o l | None => None end.
Proof.
  intros d l w ND IO E HA n Hn. rewrite (in_order_arranged d l ND IO) in *.
  assert (NA : NoDup (arranged d)) by (rewrite arranged_perm; auto).
  assert (HA' : forall m e, In m (arranged d) -> dget m d = Some e -> d_new_column e = true) by (intros m e _ Hm; apply (HA m); apply dget_In_pair; auto).
  pose proof (build_run d ND) as X. rewrite E in X. destruct X as [B _]. destruct (bs_visible _ _ _ B HA') as [_ V].
  pose proof (build_numbers d w) as Nu.
  destruct (build_sorts d w ND E) as (s & S & Ew). apply In_nth_error in Hn. destruct Hn as (i & Hi).
  assert (Hd : exists c, dget n d = Some c).
  { destruct (dget n d) as [c|] eqn:Ec; eauto. exfalso. apply (named n d); auto. apply (Permutation_in _ (arranged_perm d)). apply nth_error_In in Hi. auto. }
  destruct Hd as (c & Ec). destruct (V i n c Hi Ec) as [V1 _]. unfold header, sorts_by. rewrite V1, Ec.
  destruct (ss_sort _ _ _ S HA' i n c Hi Ec) as (v & O1 & O2).
  assert (Cs : columns w = columns s) by (rewrite Ew; auto).
  pose proof (ss_funcs _ _ _ S HA') as Fs.
  destruct (resort_nth (sort_funcs s) (objects s) (Datatypes.S i) v) as (v' & R1 & R2); auto.
  { intros p Hp. apply Fs in Hp. destruct Hp as (j & m & e & _ & _ & _ & ->). auto. }
  rewrite Ew. cbn [objects]. rewrite R1.
  assert (If : In (Datatypes.S i, Datatypes.S i) (sort_funcs s) <-> d_sorting_func c = true).
  { rewrite Fs. split; [intros (j & m & e & H1 & H2 & H3 & H4); inversion H4; subst; congruence|eauto 10]. }
  destruct (d_sorting_func c).
  - destruct R2 as [[_ R2]|[R2 _]]; [|exfalso; apply R2, If; auto]. rewrite R2. symmetry. apply place_nth; auto.
  - destruct R2 as [[R2 _]|[_ R2]]; [apply If in R2; discriminate|]. rewrite R2.
    destruct (d_sorting c) as [o|]; auto. destruct O2 as (num & k & O3 & ->). rewrite <- (Nu o ND E), Cs, O3. auto.
Qed.

Lemma set_sort_spec : forall d l w n o st, NoDup (map fst d) -> in_order d l -> build_columns d = Ok w ->
  (In n l -> exists st', set_sort_column w n o st = (st', Ok tt) /\ truthful l st' /\ get_sort_column st' = (Some n, o)) /\
  (~ In n l -> exists st', set_sort_column w n o st = (st', Err KeyError) /\ store_sorts st' = store_sorts st).
Proof.
  intros d l w n o st ND IO E. rewrite (in_order_arranged d l ND IO) in *. pose proof (build_numbers d w n ND E) as Nu.
  assert (NA : NoDup (arranged d)) by (rewrite arranged_perm; auto). unfold set_sort_column. split.
  - intros Hn. apply In_nth_error in Hn. destruct Hn as (i & Hi). rewrite (place_nth _ i n NA Hi) in Nu.
    destruct (dget n (columns w)) as [[num k]|]; [|discriminate]. simpl in Nu. inversion Nu; subst. eexists. split; [reflexivity|]. split; [|auto].
    exists n, (Datatypes.S i). split; auto. split; [apply place_nth; auto|auto].
  - intros Hn. rewrite (place_none _ _ Hn) in Nu. destruct (dget n (columns w)); [discriminate|]. eexists. split; [reflexivity|]. auto.
Qed.

Lemma truthful_spec : forall d l w cs n o, NoDup (map fst d) -> in_order d l -> build_columns d = Ok w -> In n l ->
  let st := do_sorts w (cs ++ [CSet n o]) (start_sorting w) in truthful l st /\ get_sort_column st = (Some n, o).
Proof.
  intros d l w cs n o ND IO E Hn st. unfold st, do_sorts. rewrite fold_left_app. cbn [fold_left do_sort].
  destruct (set_sort_spec d l w n o (fold_left (fun st c => do_sort w c st) cs (start_sorting w)) ND IO E) as [H _].
  destruct (H Hn) as (st' & -> & T & G). auto.
Qed.

Lemma report_spec : forall d l w cs, NoDup (map fst d) -> in_order d l -> build_columns d = Ok w ->
  get_sort_column (do_sorts w cs (start_sorting w)) = last_set cs (last_sorting d l None, ascending).
Proof.
  intros d l w cs ND IO B. rewrite <- (initial_spec d l w ND IO B). generalize (start_sorting w). clear.
  induction cs as [|[n b|k] cs IH]; intros st; simpl; auto; change (fold_left _ cs ?s) with (do_sorts w cs s); rewrite IH; f_equal.
  - unfold set_sort_column. destruct (dget n (columns w)) as [[num k]|]; reflexivity.
  - unfold click_header. destruct (nth_error (objects w) k) as [v|]; auto. destruct (tv_sort v); reflexivity.
Qed.

(** *** Cases *)
Definition sheet : description :=
  [("title", mkDesc (Some 2%Z) 0 true true (Some "date") false); ("color", mkDesc None 1 true false None false);
   ("date", mkDesc (Some 1%Z) 3 true true (Some "date") false); ("tags", mkDesc (Some 3%Z) 2 true true (Some "title") true)].

Definition sheet_order : list id := ["date"; "title"; "tags"; "color"].

Lemma case_sheet : NoDup (map fst sheet) /\ in_order sheet sheet_order /\ build_columns sheet = Ok (get_ok sheet).
Proof.
  assert (ND : NoDup (map fst sheet)) by (cbn; repeat constructor; cbn; intuition discriminate).
  split; [exact ND|]. split; [exact (arranged_ok sheet ND)|reflexivity].
Qed.
Lemma sheet_new : forall n c, In (n, c) sheet -> d_new_column c = true.
Proof. intros n c [H|[H|[H|[H|[]]]]]; inversion H; auto. Qed.

Lemma case_names : NoDup (map fst sheet) /\ in_order sheet sheet_order /\ build_columns sheet = Ok (get_ok sheet) /\
  map fst sheet = ["title"; "color"; "date"; "tags"] /\ get_columns (get_ok sheet) = sheet_order /\
  set_main_search_column (get_ok sheet) "title" = Ok 2 /\ set_expander_column (get_ok sheet) "tags" = Ok 3 /\
  set_expander_column (get_ok sheet) "nowhere" = Err KeyError.
Proof. destruct case_sheet as (H1 & H2 & H3). repeat (split; [assumption||reflexivity|]). reflexivity. Qed.

Lemma case_headers : NoDup (map fst sheet) /\ in_order sheet sheet_order /\ build_columns sheet = Ok (get_ok sheet) /\
  (forall n c, In (n, c) sheet -> d_new_column c = true) /\
  map (header (get_ok sheet)) sheet_order = [Some 1; Some 1; Some 3; None] /\ map (sorts_by sheet) sheet_order = [Some "date"; Some "date"; Some "tags"; None].
Proof. destruct case_sheet as (H1 & H2 & H3). split; [exact H1|]. split; [exact H2|]. split; [exact H3|]. split; [exact sheet_new|]. split; reflexivity. Qed.

Lemma case_initial : NoDup (map fst sheet) /\ in_order sheet sheet_order /\ build_columns sheet = Ok (get_ok sheet) /\
  get_sort_column (start_sorting (get_ok sheet)) = (Some "title", true) /\ store_sorts (start_sorting (get_ok sheet)) = None.
Proof. destruct case_sheet as (H1 & H2 & H3). split; [exact H1|]. split; [exact H2|]. split; [exact H3|]. split; reflexivity. Qed.

Lemma case_told : NoDup (map fst sheet) /\ in_order sheet sheet_order /\ build_columns sheet = Ok (get_ok sheet) /\ In "tags" sheet_order /\
  store_sorts (do_sorts (get_ok sheet) [CSet "nowhere" true; CClick 2; CClick 2] (start_sorting (get_ok sheet))) = Some (1, false) /\
  do_sorts (get_ok sheet) ([CSet "nowhere" true; CClick 2; CClick 2] ++ [CSet "tags" false]) (start_sorting (get_ok sheet)) =
    mkSorting (Some "tags") false (Some (3, false)).
Proof. destruct case_sheet as (H1 & H2 & H3). split; [exact H1|]. split; [exact H2|]. split; [exact H3|]. split; [simpl; tauto|]. split; reflexivity. Qed.

Lemma case_report : NoDup (map fst sheet) /\ in_order sheet sheet_order /\ build_columns sheet = Ok (get_ok sheet) /\
  get_sort_column (do_sorts (get_ok sheet) [CClick 3; CSet "date" false; CClick 1; CClick 1] (start_sorting (get_ok sheet))) = (Some "date", false) /\
  get_sort_column (do_sorts (get_ok sheet) [CClick 3] (start_sorting (get_ok sheet))) = (Some "title", true).
Proof. destruct case_sheet as (H1 & H2 & H3). split; [exact H1|]. split; [exact H2|]. split; [exact H3|]. split; reflexivity. Qed.

(** *** Failures *)
Lemma shared_header : exists d l w n, NoDup (map fst d) /\ in_order d l /\ build_columns d = Ok w /\ In n l /\ sorts_by d n = Some n /\
  place_in n l = Some 1 /\ header w n = Some 2.
Proof.
  set (d := [("a", mkDesc None 0 true true (Some "a") false); ("b", mkDesc None 1 false true (Some "b") false)]).
  assert (ND : NoDup (map fst d)) by (cbn; repeat constructor; cbn; intuition discriminate).
  exists d, (arranged d), (get_ok d), "a". split; [exact ND|]. split; [exact (arranged_ok d ND)|]. split; [reflexivity|]. split; [vm_compute; tauto|]. repeat split; reflexivity.
Qed.

Lemma not_truthful : forall l st, store_sorts st = None -> ~ truthful l st.
Proof. intros l st H (n & num & _ & _ & E). congruence. Qed.

Lemma never_sorted : exists d l w n, NoDup (map fst d) /\ in_order d l /\ build_columns d = Ok w /\
  fst (get_sort_column (start_sorting w)) = Some n /\ ~ truthful l (start_sorting w).
Proof.
  destruct case_sheet as (H1 & H2 & H3). exists sheet, sheet_order, (get_ok sheet), "title". split; [exact H1|]. split; [exact H2|]. split; [exact H3|].
  split; [reflexivity|]. apply not_truthful. reflexivity.
Qed.

Lemma clicked : exists d l w n o k, NoDup (map fst d) /\ in_order d l /\ build_columns d = Ok w /\
  truthful l (do_sorts w [CSet n o] (start_sorting w)) /\ ~ truthful l (do_sorts w [CSet n o; CClick k] (start_sorting w)).
Proof.
  destruct case_sheet as (H1 & H2 & H3). exists sheet, sheet_order, (get_ok sheet), "tags", true, 3. split; [exact H1|]. split; [exact H2|]. split; [exact H3|].
  split; [exists "tags", 3; repeat split; reflexivity|]. intros (n & num & E1 & E2 & E3). vm_compute in E3. discriminate.
Qed.

Lemma unknown_sort : exists d l w n o m st, NoDup (map fst d) /\ in_order d l /\ build_columns d = Ok w /\
  truthful l (do_sorts w [CSet n o] (start_sorting w)) /\ ~ In m l /\
  set_sort_column w m o (do_sorts w [CSet n o] (start_sorting w)) = (st, Err KeyError) /\ fst (get_sort_column st) = Some m /\ ~ truthful l st.
Proof.
  destruct case_sheet as (H1 & H2 & H3). exists sheet, sheet_order, (get_ok sheet), "tags", true, "nowhere". eexists. split; [exact H1|]. split; [exact H2|]. split; [exact H3|].
  split; [exists "tags", 3; repeat split; reflexivity|]. split; [cbn; intuition discriminate|]. split; [reflexivity|]. split; [reflexivity|].
  intros (n & num & E1 & E2 & E3). vm_compute in E1. inversion E1; subst. vm_compute in E2. discriminate.
Qed.
