(** Proofs about the columns of the widget. *)
From Coq Require Import ZArith Sorted Permutation Ascii NArith.
From Verif Require Import Base BaseFacts Columns SpecColumns.

(** *** Order of strings *)
Lemma compare_trans_le : forall a b c, String.leb a b = true -> String.leb b c = true -> String.leb a c = true.
Proof.
  unfold String.leb. induction a as [|x a IH]; intros [|y b] [|z c]; cbn [String.compare]; auto; try discriminate.
  unfold Ascii.compare. intros H1 H2.
  destruct (N.compare_spec (N_of_ascii x) (N_of_ascii y)) as [E1|L1|G1]; try discriminate;
  destruct (N.compare_spec (N_of_ascii y) (N_of_ascii z)) as [E2|L2|G2]; try discriminate.
  - rewrite E1, E2, N.compare_refl. eauto.
  - rewrite E1. apply N.compare_lt_iff in L2. rewrite L2. auto.
  - rewrite <- E2. apply N.compare_lt_iff in L1. rewrite L1. auto.
  - assert (L : (N_of_ascii x < N_of_ascii z)%N) by lia. apply N.compare_lt_iff in L. rewrite L. auto.
Qed.

Lemma leb_ltb : forall a b, String.leb a b = true -> a <> b -> String.ltb a b = true.
Proof.
  intros a b. unfold String.leb, String.ltb. destruct (String.compare a b) eqn:E; auto; try discriminate.
  intros _ N. exfalso. apply N. apply String.compare_eq_iff. auto.
Qed.

Lemma pair_leb_total : forall a b, pair_leb a b = true \/ pair_leb b a = true.
Proof.
  intros [x n] [y m]. unfold pair_leb. cbn [fst snd]. destruct (Z.lt_trichotomy x y) as [H|[H|H]].
  - left. apply Z.ltb_lt in H. rewrite H. auto.
  - subst. rewrite Z.ltb_irrefl, Z.eqb_refl. simpl. apply String.leb_total.
  - right. apply Z.ltb_lt in H. rewrite H. auto.
Qed.

Lemma pair_leb_trans : forall a b c, pair_leb a b = true -> pair_leb b c = true -> pair_leb a c = true.
Proof.
  intros [x n] [y m] [z k]. unfold pair_leb. cbn [fst snd]. rewrite !orb_true_iff, !andb_true_iff, !Z.ltb_lt, !Z.eqb_eq.
  intros [H1|[H1 L1]] [H2|[H2 L2]]; [left; lia|left; lia|left; lia|]. right. split; [lia|]. eapply compare_trans_le; eauto.
Qed.

Lemma insert_perm : forall x l, Permutation (insert_pair x l) (x :: l).
Proof.
  intros x l. induction l as [|y l IH]; simpl; auto. destruct (pair_leb x y); auto. rewrite IH. constructor.
Qed.

Lemma sorted_perm : forall l, Permutation (sorted_pairs l) l.
Proof. induction l as [|x l IH]; simpl; auto. rewrite insert_perm. auto. Qed.

Lemma insert_sorted : forall x l, StronglySorted (fun a b => pair_leb a b = true) l ->
  StronglySorted (fun a b => pair_leb a b = true) (insert_pair x l).
Proof.
  intros x l H. induction H as [|y l H IH F]; simpl; [repeat constructor|].
  destruct (pair_leb x y) eqn:E.
  - constructor; [constructor; auto|]. constructor; auto. eapply Forall_impl; [|exact F]. intros z Hz. eapply pair_leb_trans; eauto.
  - constructor; auto. rewrite Forall_forall in *. intros z Hz. apply (Permutation_in _ (insert_perm x l)) in Hz. destruct Hz as [<-|Hz]; auto.
    destruct (pair_leb_total x y); congruence.
Qed.

Lemma sorted_sorted : forall l, StronglySorted (fun a b => pair_leb a b = true) (sorted_pairs l).
Proof. induction l as [|x l IH]; simpl; [constructor|]. apply insert_sorted. auto. Qed.

Lemma order_nth : forall d k i, nth_error (order_of_column k d) i =
  option_map (fun '(n, c) => (match d_order c with Some o => o | None => (k + Z.of_nat i)%Z end, n)) (nth_error d i).
Proof.
  induction d as [|[n c] d IH]; intros k [|i]; cbn [order_of_column nth_error option_map]; auto.
  - rewrite Z.add_0_r. auto.
  - rewrite IH. destruct (nth_error d i) as [[m e]|]; auto. cbn [option_map]. destruct (d_order e); auto. do 2 f_equal. lia.
Qed.

Lemma order_names : forall d k, map snd (order_of_column k d) = map fst d.
Proof. induction d as [|[n c] d IH]; intros k; simpl; auto. rewrite IH. auto. Qed.

Definition arranged (d : description) : list id := map snd (sorted_pairs (order_of_column 9999 d)).

Lemma arranged_perm : forall d, Permutation (arranged d) (map fst d).
Proof. intros d. unfold arranged. rewrite sorted_perm, order_names. auto. Qed.

Lemma arranged_ok : forall d, NoDup (map fst d) -> in_order d (arranged d).
Proof.
  intros d ND. split; [apply arranged_perm|]. unfold arranged.
  assert (IN : forall x, In x (sorted_pairs (order_of_column 9999 d)) -> In x (order_of_column 9999 d)) by (intros x; apply Permutation_in, sorted_perm).
  assert (N2 : NoDup (map snd (sorted_pairs (order_of_column 9999 d)))).
  { rewrite sorted_perm, order_names. auto. }
  pose proof (sorted_sorted (order_of_column 9999 d)) as S.
  induction S as [|x l S IH F]; simpl; [constructor|]. inversion N2; subst. constructor.
  - apply IH; [intros y Hy; apply IN; right; auto|auto].
  - rewrite Forall_forall in *. intros m Hm. apply in_map_iff in Hm. destruct Hm as (y & <- & Hy).
    pose proof (F y Hy) as L. pose proof (IN x (or_introl eq_refl)) as I1. pose proof (IN y (or_intror Hy)) as I2.
    apply In_nth_error in I1, I2. destruct I1 as (i & I1), I2 as (j & I2). rewrite order_nth in I1, I2.
    destruct (nth_error d i) as [[n c]|] eqn:E1; [|discriminate]. destruct (nth_error d j) as [[n' c']|] eqn:E2; [|discriminate].
    simpl in I1, I2. inversion I1; subst x. inversion I2; subst y. cbn [snd fst] in *.
    exists i, j, c, c'. split; auto. split; auto. unfold place_of. unfold pair_leb in L. cbn [fst snd] in L.
    rewrite orb_true_iff, andb_true_iff, Z.ltb_lt, Z.eqb_eq in L. destruct L as [L|[L1 L2]]; [left; auto|right]. split; auto. apply leb_ltb; auto.
    intros ->. apply H1. apply in_map_iff. exists (match d_order c' with Some o => o | None => (9999 + Z.of_nat j)%Z end, n'). auto.
Qed.

(** *** Building *)
Lemma change_length : forall A (f : A -> A) k l, length (change_nth k f l) = length l.
Proof. induction k; intros [|x l]; simpl; auto. Qed.
Lemma change_same : forall A (f : A -> A) k l x, nth_error l k = Some x -> nth_error (change_nth k f l) k = Some (f x).
Proof. induction k; intros [|y l] x; simpl; intros H; try discriminate; auto. inversion H. auto. Qed.
Lemma change_other : forall A (f : A -> A) k j l, j <> k -> nth_error (change_nth k f l) j = nth_error l j.
Proof. induction k; intros [|j] [|y l] H; simpl; auto; try congruence. Qed.
Lemma change_map : forall A B (h : A -> B) f k l, (forall x, h (f x) = h x) -> map h (change_nth k f l) = map h l.
Proof. induction k; intros [|x l] H; simpl; auto; rewrite ?H, ?IHk; auto. Qed.
Lemma change_last : forall A (f : A -> A) l x, change_nth (length l) f (l ++ [x]) = l ++ [f x].
Proof. intros A f l x. induction l as [|y l IH]; simpl; auto. rewrite IH. auto. Qed.

(** The widget after the columns [l]. *)
Record built_so_far (d : description) (l : list id) (s : building) : Prop := {
  bs_col : length (objects s) = S (col s);
  bs_app : appended s = seq 1 (col s);
  bs_cells : flat_map tv_cells (objects s) = seq 1 (length l);
  bs_lead : leading d l = length l <-> col s = 0;
  bs_first : option_map tv_cells (hd_error (objects s)) = Some (seq 1 (leading d l));
  bs_types : map Some (types s) = map (value_of d) l;
  bs_columns : forall n, dget n (columns s) <> None <-> In n l;
  bs_number : forall i n, nth_error l i = Some n -> exists k, dget n (columns s) = Some (S i, k) /\ k <= col s /\ (k = 0 <-> i < leading d l);
  bs_visible : (forall n c, In n l -> dget n d = Some c -> d_new_column c = true) ->
    col s = length l /\ forall i n c, nth_error l i = Some n -> dget n d = Some c -> dget n (columns s) = Some (S i, S i) /\
      option_map tv_visible (nth_error (objects s) (S i)) = Some (d_visible c)
}.

Lemma leading_le : forall d l, leading d l <= length l.
Proof. intros d l. induction l as [|n l IH]; simpl; auto. destruct (dget n d) as [c|]; [destruct (d_new_column c)|]; lia. Qed.

Lemma leading_app : forall d l n c, dget n d = Some c -> (forall m, In m l -> dget m d <> None) ->
  leading d (l ++ [n]) = if Nat.eqb (leading d l) (length l) && negb (d_new_column c) then S (length l) else leading d l.
Proof.
  intros d l n c E. induction l as [|m l IH]; simpl; intros HD.
  - rewrite E. destruct (d_new_column c); auto.
  - destruct (dget m d) as [e|] eqn:Em; [|exfalso; apply (HD m); auto]. destruct (d_new_column e); [auto|]. rewrite IH by auto. simpl.
    destruct (Nat.eqb (leading d l) (length l) && negb (d_new_column c)); auto.
Qed.

Lemma objects_last : forall s, length (objects s) = S (col s) -> exists pre v, objects s = pre ++ [v] /\ length pre = col s.
Proof.
  intros s H. destruct (objects s) as [|x l] eqn:E using rev_ind; [discriminate|]. exists l, x. split; auto. rewrite app_length in H. simpl in H. lia.
Qed.

(** What a step does to the objects, apart from the sorting. *)
Definition step_objects (num : nat) (c : desc) (s : building) : list tvcolumn :=
  if d_new_column c then objects s ++ [mkTv [num] (d_visible c) None]
  else change_nth (col s) (fun v => mkTv (tv_cells v ++ [num]) (d_visible c) (tv_sort v)) (objects s).

Definition same_but_sort (a b : list tvcolumn) : Prop :=
  map tv_cells a = map tv_cells b /\ map tv_visible a = map tv_visible b.

Lemma step_run : forall d num n c s, dget n d = Some c -> length (objects s) = S (col s) ->
  let k := if d_new_column c then S (col s) else col s in
  let cols := dset n (num, k) (columns s) in
  match column_step d num n s with
  | Ok s' => (forall o, d_sorting c = Some o -> dget o cols <> None) /\ same_but_sort (objects s') (step_objects num c s) /\ col s' = k /\
      appended s' = (if d_new_column c then appended s ++ [k] else appended s) /\ columns s' = cols /\ types s' = types s ++ [d_value c]
  | Err e => e = KeyError /\ exists o, d_sorting c = Some o /\ dget o cols = None
  | Diverge => False
  end.
Proof.
  intros d num n c s E HL. unfold column_step. rewrite E. cbv zeta. set (k := if d_new_column c then S (col s) else col s).
  assert (Ek : (if d_new_column c then length (objects s) else col s) = k) by (unfold k; destruct (d_new_column c); auto). rewrite Ek.
  assert (Eo : change_nth k (fun v => mkTv (tv_cells v ++ [num]) (d_visible c) (tv_sort v)) (if d_new_column c then objects s ++ [new_tv] else objects s) = step_objects num c s).
  { unfold step_objects, k. destruct (d_new_column c); auto. rewrite <- HL, change_last. auto. }
  rewrite Eo. destruct (d_sorting c) as [o|].
  - destruct (dget o (dset n (num, k) (columns s))) as [[sn k']|] eqn:Eq; [|eauto].
    cbn [objects col appended columns types]. split; [intros o' H; inversion H; subst; congruence|].
    split; [|auto]. split; apply change_map; auto.
  - cbn [objects col appended columns types]. split; [discriminate|]. split; [split; auto|auto].
Qed.

Lemma map_cells : forall a b, map tv_cells a = map tv_cells b -> flat_map tv_cells a = flat_map tv_cells b.
Proof. intros a b H. rewrite !flat_map_concat_map, H. auto. Qed.

Lemma hd_map : forall A B (f : A -> B) l, option_map f (hd_error l) = hd_error (map f l).
Proof. intros A B f [|x l]; auto. Qed.

Lemma nth_map : forall A B (f : A -> B) l i, option_map f (nth_error l i) = nth_error (map f l) i.
Proof. intros A B f l. induction l; intros [|i]; simpl; auto. Qed.

Lemma step_keeps : forall d l n c s s', built_so_far d l s -> dget n d = Some c -> ~ In n l -> (forall m, In m l -> dget m d <> None) ->
  column_step d (S (length l)) n s = Ok s' -> built_so_far d (l ++ [n]) s'.
Proof.
  intros d l n c s s' [] E Hn HD HS. pose proof (step_run d (S (length l)) n c s E bs_col0) as X. rewrite HS in X. cbv zeta in X.
  destruct X as (_ & [Oc Ov] & Ec & Ea & Eco & Et).
  destruct (objects_last s bs_col0) as (pre & v & Eobj & Lp).
  assert (SO : step_objects (S (length l)) c s = if d_new_column c then objects s ++ [mkTv [S (length l)] (d_visible c) None]
     else pre ++ [mkTv (tv_cells v ++ [S (length l)]) (d_visible c) (tv_sort v)]).
  { unfold step_objects. destruct (d_new_column c); auto. rewrite Eobj, <- Lp, change_last. auto. }
  assert (Len : length (objects s') = length (step_objects (S (length l)) c s)) by (rewrite <- (map_length tv_cells), Oc, map_length; auto).
  assert (FC : flat_map tv_cells (step_objects (S (length l)) c s) = seq 1 (length l) ++ [S (length l)]).
  { rewrite SO, <- bs_cells0. destruct (d_new_column c); rewrite flat_map_app; cbn [flat_map tv_cells]; rewrite ?app_nil_r; auto.
    rewrite Eobj, flat_map_app. cbn [flat_map]. rewrite app_nil_r, <- app_assoc. auto. }
  constructor.
  - rewrite Len, SO, Ec. destruct (d_new_column c); rewrite app_length; simpl; lia.
  - rewrite Ea, Ec, bs_app0. destruct (d_new_column c); auto. rewrite seq_S. auto.
  - rewrite (map_cells _ _ Oc), FC, app_length. simpl. rewrite Nat.add_1_r, seq_S. auto.
  - rewrite Ec, (leading_app d l n c), app_length by auto. cbn [length]. pose proof (leading_le d l) as LL.
    destruct (d_new_column c); cbn [negb]; rewrite ?andb_false_r, ?andb_true_r; [split; [lia|discriminate]|].
    destruct (Nat.eqb_spec (leading d l) (length l)) as [H|H]; [split; [tauto|lia]|]. split; [lia|tauto].
  - rewrite hd_map, Oc, <- hd_map, SO, (leading_app d l n c) by auto.
    pose proof (leading_le d l) as LL.
    destruct (d_new_column c); cbn [negb]; rewrite ?andb_false_r, ?andb_true_r.
    + destruct (objects s) as [|x r]; [discriminate|]. exact bs_first0.
    + destruct pre as [|x pre].
      * assert (H : leading d l = length l) by (apply bs_lead0; rewrite <- Lp; auto). rewrite H, Nat.eqb_refl.
        rewrite Eobj in bs_first0. cbn [app hd_error option_map] in *. inversion bs_first0 as [EF]. cbn [tv_cells]. rewrite EF, H, seq_S. auto.
      * destruct (Nat.eqb_spec (leading d l) (length l)) as [H|H]; [apply bs_lead0 in H; rewrite H in Lp; discriminate|].
        rewrite Eobj in bs_first0. exact bs_first0.
  - rewrite Et, !map_app, bs_types0. cbn [map]. f_equal. unfold value_of. rewrite E. auto.
  - intros m. rewrite Eco, dget_dset, in_app_iff, <- bs_columns0. cbn [In]. deq m n; [split; [auto|discriminate]|]. split; [auto|].
    intros [H|[H|[]]]; [exact H|congruence].
  - intros i m H. rewrite Eco, dget_dset, Ec, (leading_app d l n c) by auto. pose proof (leading_le d l) as LL.
    destruct (Nat.lt_ge_cases i (length l)) as [Hi|Hi].
    + rewrite nth_error_app1 in H by auto. deq m n; [subst; exfalso; apply Hn; eapply nth_error_In; eauto|].
      destruct (bs_number0 i m H) as (k & K1 & K2 & K3). exists k. split; auto. split; [destruct (d_new_column c); lia|].
      destruct (Nat.eqb_spec (leading d l) (length l)) as [Q|Q]; cbn [andb]; [|auto]. destruct (negb (d_new_column c)); [rewrite K3; lia|auto].
    + rewrite nth_error_app2 in H by auto. destruct (i - length l) as [|j] eqn:Ei; [|destruct j; discriminate]. simpl in H. inversion H; subst m.
      rewrite eqb_refl. replace i with (length l) by lia. eexists. split; [reflexivity|]. split; [auto|].
      destruct (d_new_column c); cbn [negb]; rewrite ?andb_false_r, ?andb_true_r; [split; [discriminate|lia]|]. rewrite <- bs_lead0.
      destruct (Nat.eqb_spec (leading d l) (length l)); lia.
  - intros HA. assert (HC : d_new_column c = true) by (apply (HA n); auto; apply in_app_iff; simpl; auto).
    destruct bs_visible0 as [V1 V2]. { intros m e Hm. apply HA. apply in_app_iff. auto. }
    rewrite HC in *. split; [rewrite Ec, V1, app_length; simpl; lia|]. intros i m e H Ee.
    rewrite Eco, dget_dset, nth_map, Ov, <- nth_map, SO. destruct (Nat.lt_ge_cases i (length l)) as [Hi|Hi].
    + rewrite nth_error_app1 in H by auto. deq m n; [subst; exfalso; apply Hn; eapply nth_error_In; eauto|].
      rewrite nth_error_app1 by lia. auto.
    + rewrite nth_error_app2 in H by auto. destruct (i - length l) as [|j] eqn:Ei; [|destruct j; discriminate]. simpl in H. inversion H; subst m.
      rewrite eqb_refl. assert (i = length l) by lia. subst i. split; [rewrite V1; auto|].
      rewrite nth_error_app2 by lia. replace (S (length l) - length (objects s)) with 0 by lia. cbn. congruence.
Qed.

Lemma steps_run : forall d l2 l s, built_so_far d l s -> NoDup (l ++ l2) -> (forall m, In m (l ++ l2) -> dget m d <> None) ->
  match column_steps d (S (length l)) l2 s with
  | Ok s' => built_so_far d (l ++ l2) s' /\ (forall i n c o, nth_error l2 i = Some n -> dget n d = Some c -> d_sorting c = Some o -> In o (l ++ firstn (S i) l2))
  | Err e => e = KeyError /\ exists i n c o, nth_error l2 i = Some n /\ dget n d = Some c /\ d_sorting c = Some o /\ ~ In o (l ++ firstn (S i) l2)
  | Diverge => False
  end.
Proof.
  intros d l2. induction l2 as [|n l2 IH]; intros l s B ND HD; cbn [column_steps].
  { rewrite app_nil_r. split; auto. intros [|i]; discriminate. }
  assert (Hn : ~ In n l). { apply NoDup_remove_2 in ND. intros H. apply ND. apply in_app_iff. auto. }
  destruct (dget n d) as [c|] eqn:E; [|exfalso; apply (HD n); auto; apply in_app_iff; simpl; auto].
  assert (HDl : forall m, In m l -> dget m d <> None) by (intros m Hm; apply HD; apply in_app_iff; auto).
  pose proof (step_run d (S (length l)) n c s E (bs_col _ _ _ B)) as X. cbv zeta in X.
  pose proof (step_keeps d l n c s) as SK. assert (CO : forall k o, dget o (dset n k (columns s)) <> None <-> In o (l ++ [n])).
  { intros k o. rewrite dget_dset, in_app_iff, <- (bs_columns _ _ _ B). cbn [In]. deq o n; [split; [auto|discriminate]|]. split; [auto|]. intros [H|[H|[]]]; [exact H|congruence]. }
  destruct (column_step d (S (length l)) n s) as [s1|e|]; [| |contradiction].
  - destruct X as (X & _). specialize (SK s1 B E Hn HDl eq_refl).
    specialize (IH (l ++ [n]) s1 SK). rewrite <- !app_assoc in IH. cbn [app] in IH. specialize (IH ND HD).
    rewrite app_length in IH. cbn [length] in IH. rewrite Nat.add_1_r in IH.
    destruct (column_steps d (S (S (length l))) l2 s1) as [s2|e|]; [| |contradiction].
    + destruct IH as [B2 IH]. split; auto. intros [|i] m c0 o H1 H2 H3.
      * cbn in H1. inversion H1; subst m. rewrite E in H2. inversion H2; subst c0. cbn [firstn]. apply (CO (S (length l), if d_new_column c then S (col s) else col s)). auto.
      * cbn [nth_error] in H1. specialize (IH i m c0 o H1 H2 H3). rewrite <- app_assoc in IH. exact IH.
    + destruct IH as (-> & i & m & c0 & o & H1 & H2 & H3 & H4). split; auto. exists (S i), m, c0, o. split; auto. split; auto. split; auto.
      rewrite <- app_assoc in H4. exact H4.
  - destruct X as (-> & o & H1 & H2). split; auto. exists 0, n, c, o. split; auto. split; auto. split; auto. cbn [firstn].
    intros H. apply (CO (S (length l), if d_new_column c then S (col s) else col s)) in H. auto.
Qed.

(** *** The order is unique *)
Lemma ltb_asym : forall a b, String.ltb a b = true -> String.ltb b a = true -> False.
Proof.
  intros a b. unfold String.ltb. rewrite (String.compare_antisym b a). destruct (String.compare a b); simpl; discriminate.
Qed.

Lemma nth_unique : forall (d : description) i j n c e, NoDup (map fst d) -> nth_error d i = Some (n, c) -> nth_error d j = Some (n, e) -> i = j /\ c = e.
Proof.
  intros d i j n c e ND H1 H2. assert (i = j).
  { apply (proj1 (NoDup_nth_error (map fst d)) ND).
    - rewrite map_length. apply nth_error_Some. congruence.
    - rewrite <- !nth_map, H1, H2. auto. }
  subst. rewrite H1 in H2. inversion H2. auto.
Qed.

Lemma earlier_asym : forall d m n, NoDup (map fst d) -> earlier d m n -> earlier d n m -> False.
Proof.
  intros d m n ND (i & j & c & e & H1 & H2 & H3) (j' & i' & e' & c' & G1 & G2 & G3).
  destruct (nth_unique d i i' m c c' ND H1 G2) as [<- <-]. destruct (nth_unique d j j' n e e' ND H2 G1) as [<- <-].
  destruct H3 as [H3|[H3 H4]]; destruct G3 as [G3|[G3 G4]]; try lia. eapply ltb_asym; eauto.
Qed.

Lemma sorted_unique : forall d l l', NoDup (map fst d) -> StronglySorted (earlier d) l -> StronglySorted (earlier d) l' -> Permutation l l' -> l = l'.
Proof.
  intros d l l' ND S. revert l'. induction S as [|x l S IH F]; intros l' S' P.
  - apply Permutation_nil in P. auto.
  - destruct S' as [|y l' S' F'].
    + apply Permutation_sym, Permutation_nil in P. discriminate.
    + assert (x = y).
      { destruct (id_dec x y) as [|N]; auto. exfalso. rewrite Forall_forall in F, F'.
        apply (earlier_asym d x y ND).
        - apply F. assert (I : In y (x :: l)) by (apply (Permutation_in _ (Permutation_sym P)); left; auto). destruct I; congruence.
        - apply F'. assert (I : In x (y :: l')) by (apply (Permutation_in _ P); left; auto). destruct I; congruence. }
      subst y. f_equal. apply IH; auto. eapply Permutation_cons_inv; eauto.
Qed.

Lemma in_order_arranged : forall d l, NoDup (map fst d) -> in_order d l -> l = arranged d.
Proof.
  intros d l ND [P S]. destruct (arranged_ok d ND) as [P' S']. apply (sorted_unique d); auto. rewrite P, P'. auto.
Qed.

(** *** The whole widget *)
Lemma start_ok : forall d, built_so_far d [] start_building.
Proof.
  intros d. constructor; cbn; auto; try tauto.
  - intros [|i]; discriminate.
  - intros _. split; auto. intros [|i]; discriminate.
Qed.

Lemma named : forall n (d : description), In n (map fst d) -> dget n d <> None.
Proof. intros n d H. destruct (dget_In n d H) as (c & E). congruence. Qed.

Lemma existsb_nat : forall k l, In k l <-> existsb (Nat.eqb k) l = true.
Proof. intros k l. rewrite existsb_exists. split; [intros H; exists k; split; auto; apply Nat.eqb_refl|]. intros (x & H & E). apply Nat.eqb_eq in E. subst. auto. Qed.

Definition resort (l : list (nat * nat)) (obs : list tvcolumn) : list tvcolumn :=
  fold_left (fun obs '(num, k) => change_nth k (fun v => mkTv (tv_cells v) (tv_visible v) (Some num)) obs) l obs.

Lemma resort_same : forall l obs, same_but_sort (resort l obs) obs.
Proof.
  intros l. induction l as [|[num k] l IH]; intros obs; [split; auto|]. unfold resort in *. cbn [fold_left].
  destruct (IH (change_nth k (fun v => mkTv (tv_cells v) (tv_visible v) (Some num)) obs)) as [H1 H2]. split; [rewrite H1|rewrite H2]; apply change_map; auto.
Qed.

Lemma built_resort : forall d l s l', built_so_far d l s -> built_so_far d l
  (mkBuilding (resort l' (objects s)) (col s) (appended s) (columns s) (types s) (sort_col s) (sort_funcs s)).
Proof.
  intros d l s l' []. destruct (resort_same l' (objects s)) as [S1 S2]. constructor; cbn [objects col appended columns types]; auto.
  - rewrite <- (map_length tv_cells), S1, map_length. auto.
  - rewrite (map_cells _ _ S1). auto.
  - rewrite hd_map, S1, <- hd_map. auto.
  - intros HA. destruct (bs_visible0 HA) as [V1 V2]. split; auto. intros i n c H1 H2. rewrite nth_map, S2, <- nth_map. auto.
Qed.

Lemma build_run : forall d, NoDup (map fst d) ->
  match build_columns d with
  | Ok w => built_so_far d (arranged d) w /\
      (forall i n c o, nth_error (arranged d) i = Some n -> dget n d = Some c -> d_sorting c = Some o -> In o (firstn (S i) (arranged d)))
  | Err e => e = KeyError /\ exists i n c o, nth_error (arranged d) i = Some n /\ dget n d = Some c /\ d_sorting c = Some o /\ ~ In o (firstn (S i) (arranged d))
  | Diverge => False
  end.
Proof.
  intros d ND. unfold build_columns. fold (arranged d).
  pose proof (steps_run d (arranged d) [] start_building (start_ok d)) as X. cbn [app length] in X.
  assert (H1 : NoDup (arranged d)) by (rewrite arranged_perm; auto).
  assert (H2 : forall m, In m (arranged d) -> dget m d <> None).
  { intros m Hm. apply (Permutation_in _ (arranged_perm d)) in Hm. apply named. exact Hm. }
  specialize (X H1 H2). destruct (column_steps d 1 (arranged d) start_building) as [s|e|]; auto. destruct X as [B S]. split; auto.
  apply built_resort. auto.
Qed.

Lemma shown_cells : forall d l w, built_so_far d l w -> cells_shown w = skipn (leading d l) (seq 1 (length l)).
Proof.
  intros d l w []. unfold cells_shown. rewrite bs_app0, <- bs_cells0. destruct (objects w) as [|v obs] eqn:E; [discriminate|].
  cbn [flat_map]. cbn in bs_first0. inversion bs_first0 as [EF]. rewrite EF, skipn_app, skipn_all2, seq_length, Nat.sub_diag by (rewrite seq_length; lia).
  cbn [app skipn]. assert (EL : col w = length obs) by (simpl in bs_col0; lia). rewrite EL.
  clear. assert (G : forall pre, flat_map (fun k => match nth_error (pre ++ obs) k with Some v => tv_cells v | None => [] end) (seq (length pre) (length obs)) = flat_map tv_cells obs).
  { induction obs as [|x obs IH]; intros pre; auto. cbn [length seq flat_map]. rewrite nth_error_app2, Nat.sub_diag by lia. cbn [nth_error]. f_equal.
    specialize (IH (pre ++ [x])). rewrite <- app_assoc, app_length, Nat.add_1_r in IH. exact IH. }
  exact (G [v]).
Qed.

Lemma columns_spec : forall d l w, NoDup (map fst d) -> in_order d l -> build_columns d = Ok w ->
  map Some (types w) = map (value_of d) l /\
  (forall n, dget n (columns w) <> None <-> In n (map fst d)) /\
  (forall i n, nth_error l i = Some n -> exists k, dget n (columns w) = Some (S i, k)) /\
  cells_shown w = skipn (leading d l) (seq 1 (length l)).
Proof.
  intros d l w ND IO E. rewrite (in_order_arranged d l ND IO). pose proof (build_run d ND) as X. rewrite E in X. destruct X as [B _].
  split; [apply B|]. split; [|split; [|apply shown_cells; auto]].
  2: { intros i n H. destruct (bs_number _ _ _ B i n H) as (k & K & _). eauto. }
  intros n. rewrite (bs_columns _ _ _ B). split; apply Permutation_in; [|apply Permutation_sym]; apply arranged_perm.
Qed.

Lemma order_exists : forall d, NoDup (map fst d) -> exists l, in_order d l /\ forall l', in_order d l' -> l' = l.
Proof. intros d ND. exists (arranged d). split; [apply arranged_ok; auto|]. intros l'. apply in_order_arranged. auto. Qed.

Definition sorts_known (d : description) (l : list id) : Prop :=
  forall i n c o, nth_error l i = Some n -> dget n d = Some c -> d_sorting c = Some o -> In o (firstn (S i) l).

Lemma builds_iff : forall d l, NoDup (map fst d) -> in_order d l ->
  ((exists w, build_columns d = Ok w) <->
   forall i n c o, nth_error l i = Some n -> dget n d = Some c -> d_sorting c = Some o -> In o (firstn (S i) l)) /\
  ((exists w, build_columns d = Ok w) \/ build_columns d = Err KeyError).
Proof.
  intros d l ND IO. rewrite (in_order_arranged d l ND IO). pose proof (build_run d ND) as X.
  destruct (build_columns d) as [w|e|]; [| |contradiction].
  - destruct X as [_ X]. split; [|left; eauto]. split; [intros _; auto|eauto].
  - destruct X as (-> & i & n & c & o & H1 & H2 & H3 & H4). split; [|auto]. split; [intros (w & Ew); discriminate|]. intros H. exfalso. eauto.
Qed.

Lemma visible_spec : forall d w, NoDup (map fst d) -> build_columns d = Ok w -> (forall n c, In (n, c) d -> d_new_column c = true) ->
  forall n c, dget n d = Some c -> visible_in w n = Some (d_visible c).
Proof.
  intros d w ND E HA n c Hc. pose proof (build_run d ND) as X. rewrite E in X. destruct X as [B _].
  destruct (bs_visible _ _ _ B) as [_ V]. { intros m e _ Hm. apply (HA m). apply dget_In_pair. auto. }
  assert (I : In n (arranged d)). { apply (Permutation_in _ (Permutation_sym (arranged_perm d))). apply (dget_Some_In _ c). auto. }
  apply In_nth_error in I. destruct I as (i & Hi). destruct (V i n c Hi Hc) as [V1 V2]. unfold visible_in. rewrite V1. auto.
Qed.

Lemma set_visible_spec : forall d w n v, NoDup (map fst d) -> build_columns d = Ok w -> (forall n c, In (n, c) d -> d_new_column c = true) ->
  In n (map fst d) ->
  exists w', set_col_visible n v w = Ok w' /\ visible_in w' n = Some v /\ (forall m, m <> n -> visible_in w' m = visible_in w m) /\
    cells_shown w' = cells_shown w.
Proof.
  intros d w n v ND E HA Hn. pose proof (build_run d ND) as X. rewrite E in X. destruct X as [B _].
  destruct (bs_visible _ _ _ B) as [V0 V]. { intros m e _ Hm. apply (HA m). apply dget_In_pair. auto. }
  assert (I : forall m, In m (map fst d) -> exists i c, nth_error (arranged d) i = Some m /\ dget m d = Some c).
  { intros m Hm. assert (Im : In m (arranged d)) by (apply (Permutation_in _ (Permutation_sym (arranged_perm d))); auto).
    apply In_nth_error in Im. destruct Im as (i & Hi). apply named in Hm. destruct (dget m d) as [c|] eqn:Ec; [|congruence]. eauto. }
  destruct (I n Hn) as (i & c & Hi & Hc). destruct (V i n c Hi Hc) as [V1 V2].
  unfold set_col_visible. rewrite V1. eexists. split; [reflexivity|]. unfold visible_in, cells_shown. cbn [columns objects appended]. split; [|split].
  - rewrite V1. destruct (nth_error (objects w) (S i)) as [o|] eqn:Eo; [|discriminate]. rewrite (change_same _ _ _ _ o Eo). auto.
  - intros m Nm. destruct (dget m (columns w)) as [[num k]|] eqn:Em; auto.
    assert (Hm : In m (map fst d)).
    { apply (Permutation_in _ (arranged_perm d)). apply (bs_columns _ _ _ B). congruence. }
    destruct (I m Hm) as (j & e & Hj & He). destruct (V j m e Hj He) as [W1 _]. rewrite Em in W1. inversion W1; subst.
    rewrite change_other; auto. intros Ej. inversion Ej; subst. congruence.
  - apply flat_map_ext. intros k.
    pose proof (change_map _ _ tv_cells (fun o => mkTv (tv_cells o) v (tv_sort o)) (S i) (objects w) (fun _ => eq_refl)) as CM.
    pose proof (nth_map _ _ tv_cells (change_nth (S i) (fun o => mkTv (tv_cells o) v (tv_sort o)) (objects w)) k) as N1.
    rewrite CM, <- nth_map in N1. destruct (nth_error (change_nth _ _ _) k); destruct (nth_error (objects w) k); simpl in N1; congruence.
Qed.

(** *** Column functions *)
Lemma number_ref : forall d w n, NoDup (map fst d) -> build_columns d = Ok w -> In n (map fst d) ->
  exists num k c, dget n (columns w) = Some (num, k) /\ dget n d = Some c /\ column_ref w num = Some (d_value c) /\
    (In k (appended w) <-> In num (cells_shown w)).
Proof.
  intros d w n ND E Hn. pose proof (build_run d ND) as X. rewrite E in X. destruct X as [B _].
  assert (Im : In n (arranged d)) by (apply (Permutation_in _ (Permutation_sym (arranged_perm d))); auto).
  apply In_nth_error in Im. destruct Im as (i & Hi). apply named in Hn. destruct (dget n d) as [c|] eqn:Ec; [|congruence].
  destruct (bs_number _ _ _ B i n Hi) as (k & Hk & K2 & K3). exists (S i), k, c. split; auto. split; auto. split.
  - cbn [column_ref].
    pose proof (bs_types _ _ _ B) as T. assert (G : option_map Some (nth_error (types w) i) = Some (value_of d n)).
    { rewrite nth_map, T, <- nth_map, Hi. auto. }
    unfold value_of in G. rewrite Ec in G. destruct (nth_error (types w) i); simpl in G; congruence.
  - rewrite (shown_cells _ _ _ B), (bs_app _ _ _ B). assert (L : i < length (arranged d)) by (apply nth_error_Some; congruence).
    assert (SK : forall m a b, skipn m (seq a b) = seq (a + m) (b - m)).
    { clear. intros m. induction m as [|m IH]; intros a b; [rewrite Nat.add_0_r, Nat.sub_0_r; auto|]. destruct b as [|b]; auto. cbn [seq skipn].
      rewrite IH. f_equal. lia. }
    rewrite SK, !in_seq. lia.
Qed.

Lemma bg_spec : forall d w n f h num k, NoDup (map fst d) -> build_columns d = Ok w -> dget n (columns w) = Some (num, k) -> In num (cells_shown w) ->
  exists h', set_bg_color w n f h = (h', Ok num) /\ function_of h' w n = Some f /\
    forall d' w', NoDup (map fst d') -> build_columns d' = Ok w' -> forall m, In m (map fst d') -> value_of d' m <> value_of d n ->
      function_of h' w' m = function_of h w' m.
Proof.
  intros d w n f h num k ND E Hk Hs.
  assert (Hn : In n (map fst d)).
  { pose proof (build_run d ND) as X. rewrite E in X. destruct X as [B _]. apply (Permutation_in _ (arranged_perm d)). apply (bs_columns _ _ _ B). congruence. }
  destruct (number_ref d w n ND E Hn) as (num' & k' & c & H1 & H2 & H3 & H4). rewrite Hk in H1. inversion H1; subst num' k'.
  apply H4, existsb_nat in Hs. unfold set_bg_color, set_column_function. rewrite Hk, Hs, H3. eexists. split; [reflexivity|]. split.
  - unfold function_of. rewrite Hk, H3. simpl. rewrite Nat.eqb_refl. auto.
  - intros d' w' ND' E' m Hm Nv. destruct (number_ref d' w' m ND' E' Hm) as (num' & k' & c' & G1 & G2 & G3 & _).
    unfold function_of. rewrite G1, G3. simpl. unfold value_of in Nv. rewrite H2, G2 in Nv. simpl in Nv.
    destruct (Nat.eqb_spec (d_value c') (d_value c)); congruence.
Qed.

Lemma bg_refused : forall d w n f h, NoDup (map fst d) -> build_columns d = Ok w ->
  (~ In n (map fst d) -> set_bg_color w n f h = (h, Err ValueError)) /\
  (forall num k, dget n (columns w) = Some (num, k) -> ~ In num (cells_shown w) -> set_bg_color w n f h = (h, Err AttributeError)).
Proof.
  intros d w n f h ND E. pose proof (build_run d ND) as X. rewrite E in X. destruct X as [B _]. split.
  - intros Hn. unfold set_bg_color. destruct (dget n (columns w)) as [[num k]|] eqn:Em; auto. exfalso. apply Hn. apply (Permutation_in _ (arranged_perm d)). apply (bs_columns _ _ _ B). congruence.
  - intros num k Hk Hs.
    assert (Hn : In n (map fst d)) by (apply (Permutation_in _ (arranged_perm d)); apply (bs_columns _ _ _ B); congruence).
    destruct (number_ref d w n ND E Hn) as (num' & k' & c & H1 & H2 & H3 & H4). rewrite Hk in H1. inversion H1; subst num' k'.
    unfold set_bg_color. rewrite Hk. destruct (existsb (Nat.eqb k) (appended w)) eqn:Q; auto. exfalso. apply Hs, H4, existsb_nat. auto.
Qed.

(** *** Cases *)
Definition plain_desc (o : option Z) (v : nat) : desc := mkDesc o v true true None false.
Definition tasks : description :=
  [("title", plain_desc (Some 1%Z) 0); ("color", mkDesc None 1 true false None false);
   ("tags", mkDesc (Some 2%Z) 2 false true None false); ("date", mkDesc (Some 1%Z) 3 true true (Some "date") true)].
Definition get_ok (d : description) : building := match build_columns d with Ok w => w | _ => start_building end.

Lemma tasks_example : NoDup (map fst tasks) /\ in_order tasks ["date"; "title"; "tags"; "color"] /\ build_columns tasks = Ok (get_ok tasks) /\
  dget "tags" (columns (get_ok tasks)) = Some (3, 2) /\ types (get_ok tasks) = [3; 0; 2; 1] /\ cells_shown (get_ok tasks) = [1; 2; 3; 4] /\
  map tv_cells (objects (get_ok tasks)) = [[]; [1]; [2; 3]; [4]].
Proof.
  assert (ND : NoDup (map fst tasks)) by (cbn; repeat constructor; cbn; intuition discriminate).
  split; [exact ND|]. split; [exact (arranged_ok tasks ND)|]. repeat split; reflexivity.
Qed.

Lemma column_lost : exists d w n num k, NoDup (map fst d) /\ build_columns d = Ok w /\ dget n (columns w) = Some (num, k) /\ ~ In num (cells_shown w).
Proof.
  exists [("a", mkDesc None 0 false true None false); ("b", plain_desc None 1)], (get_ok [("a", mkDesc None 0 false true None false); ("b", plain_desc None 1)]), "a", 1, 0.
  split; [cbn; repeat constructor; cbn; intuition discriminate|]. split; [reflexivity|]. split; [reflexivity|]. vm_compute. intuition discriminate.
Qed.

Lemma column_hidden : exists d w n c, NoDup (map fst d) /\ build_columns d = Ok w /\ dget n d = Some c /\ d_visible c = true /\ visible_in w n = Some false.
Proof.
  set (d := [("a", plain_desc None 0); ("b", mkDesc None 1 false false None false)]).
  exists d, (get_ok d), "a", (plain_desc None 0). split; [cbn; repeat constructor; cbn; intuition discriminate|]. repeat split; reflexivity.
Qed.

Definition first_joined : description := [("a", mkDesc None 0 false true None false); ("b", plain_desc None 1)].
Lemma later_sorting : exists d, NoDup (map fst d) /\ (forall n c o, In (n, c) d -> d_sorting c = Some o -> In o (map fst d)) /\ build_columns d = Err KeyError.
Proof.
  exists [("a", mkDesc None 0 true true (Some "b") false); ("b", plain_desc None 1)].
  split; [cbn; repeat constructor; cbn; intuition discriminate|]. split; [|reflexivity].
  intros n c o [H|[H|[]]] Hs; inversion H; subst; cbn in Hs; inversion Hs; subst; cbn; auto.
Qed.

Lemma shared_function : exists d d' w w' n m f h, NoDup (map fst d) /\ NoDup (map fst d') /\ build_columns d = Ok w /\ build_columns d' = Ok w' /\
  map fst d <> map fst d' /\ function_of h w' m = Some 7 /\ function_of (fst (set_bg_color w n f h)) w' m = Some 9.
Proof.
  set (d := [("a", plain_desc None 0)]). set (d' := [("b", plain_desc None 1); ("a", plain_desc None 0)]).
  exists d, d', (get_ok d), (get_ok d'), "a", "a", 9, (fun _ => 7).
  do 2 (split; [cbn; repeat constructor; cbn; intuition discriminate|]). split; [reflexivity|]. split; [reflexivity|]. split; [discriminate|]. split; reflexivity.
Qed.
