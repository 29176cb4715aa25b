(** The Gtk model: a store that follows the signals of a view. *)
From Coq Require Import Permutation.
From Verif Require Import Base BaseFacts MainTree MainPaths Spec Filters FTree SpecApi SpecView SpecViewing FtSignals Gtk SpecGtk.

Lemma pget_pset : forall V k k' (v : V) d, pget k (pset k' v d) = if path_eqb k k' then Some v else pget k d.
Proof.
  intros V k k' v d. induction d as [|[j w] d IH]; simpl.
  - auto.
  - destruct (path_eqb k' j) eqn:E.
    + apply path_eqb_eq in E. subst j. simpl. destruct (path_eqb k k'); auto.
    + simpl. destruct (path_eqb k j) eqn:E2; [|apply IH]. apply path_eqb_eq in E2. subst j.
      destruct (path_eqb k k') eqn:E3; auto. apply path_eqb_eq in E3. subst. rewrite (proj2 (path_eqb_eq k' k')) in E by auto. discriminate.
Qed.

Lemma pget_pdel : forall V k k' (d : list (list id * V)), path_eqb k k' = false -> pget k (pdel k' d) = pget k d.
Proof.
  intros V k k' d H. induction d as [|[j w] d IH]; simpl; auto.
  destruct (path_eqb k' j) eqn:E.
  - apply path_eqb_eq in E. subst j. rewrite H. auto.
  - simpl. rewrite IH. auto.
Qed.

Lemma path_eqb_refl' : forall k, path_eqb k k = true.
Proof. intros. apply path_eqb_eq. auto. Qed.

Lemma path_eqb_neq : forall k k', k <> k' -> path_eqb k k' = false.
Proof. intros k k' H. destruct (path_eqb k k') eqn:E; auto. apply path_eqb_eq in E. contradiction. Qed.

Lemma drop_rows_leaf : forall a l, (forall r, In r l -> r_parent r <> Some a) ->
  drop_rows a l = filter (fun r => negb (Nat.eqb (r_addr r) a)) l.
Proof.
  intros a l H. unfold drop_rows.
  assert (K : forall f r, In r l -> is_under f l a r = Nat.eqb (r_addr r) a).
  { intros f. induction f as [|f IH]; intros r Hr; cbn [is_under]; [apply orb_false_r|].
    destruct (Nat.eqb (r_addr r) a); auto. simpl. destruct (r_parent r) as [p|] eqn:P; auto.
    destruct (find (fun q => Nat.eqb (r_addr q) p) l) as [q|] eqn:E; auto. apply find_some in E. destruct E as [E1 E2]. apply Nat.eqb_eq in E2.
    rewrite IH by auto. apply Nat.eqb_neq. intros E. apply (H r Hr). congruence. }
  apply filter_ext_in. intros r Hr. rewrite K; auto.
Qed.

Lemma next_row_In : forall a l b, NoDup (map r_addr l) -> next_row a l = Some b -> a <> b /\ exists r, In r l /\ r_addr r = b.
Proof.
  intros a l b. induction l as [|r l IH]; simpl; [discriminate|]. intros ND H. inversion ND as [|? ? N1 N2]; subst.
  destruct (Nat.eqb (r_addr r) a) eqn:E.
  - apply Nat.eqb_eq in E. destruct l as [|r' l]; [discriminate|]. simpl in H. inversion H; subst. split; [|exists r'; auto].
    intros X. apply N1. rewrite X. left. auto.
  - destruct (IH N2 H) as (H1 & r' & H2 & H3). split; auto. exists r'. auto.
Qed.

(** ** Where the rows are *)
Record layout (L : list (list id * row)) (g : gtk) (cs : list (list id)) : Prop := {
  l_rows : map snd L = rows g;
  l_nd : NoDup (map fst L);
  l_cs : forall l, In l (map fst L) <-> In l cs;
  l_addr : NoDup (map r_addr (rows g));
  l_path : forall p r, In (p, r) L -> exists q, p = q ++ [r_id r] /\
    ((q = [] /\ r_parent r = None) \/ exists rq, In (q, rq) L /\ r_parent r = Some (r_addr rq));
  l_pos : forall p, In p cs -> pget p (cache_position g) <> None
}.

(** A cached iterator that looks right is right. *)
Definition cache_good (L : list (list id * row)) (g : gtk) (p : list id) : Prop :=
  forall a q r, pget p (cache_paths g) = Some (Some a) -> In (q, r) L -> r_addr r = a -> r_id r = last p "" -> q = p.

Lemma NoDup_map_inj : forall A B (f : A -> B) l x y, NoDup (map f l) -> In x l -> In y l -> f x = f y -> x = y.
Proof.
  intros A B f l x y. induction l as [|z l IH]; simpl; [tauto|]. intros ND Hx Hy E. inversion ND as [|? ? N1 N2]; subst.
  destruct Hx as [->|Hx]; destruct Hy as [->|Hy]; auto.
  - exfalso. apply N1. rewrite E. apply in_map. auto.
  - exfalso. apply N1. rewrite <- E. apply in_map. auto.
Qed.

(** Sorting the rows changes nothing of this. *)
Lemma layout_sort : forall L g g' cs, layout L g cs -> Permutation (rows g') (rows g) -> cache_position g' = cache_position g ->
  exists L', layout L' g' cs /\ Permutation L' L.
Proof.
  intros L g g' cs [] P Ep. rewrite <- l_rows0 in P. apply Permutation_map_inv in P. destruct P as (L' & E & P).
  assert (IN : forall z, In z L' <-> In z L) by (intros z; split; apply Permutation_in; [apply Permutation_sym|]; exact P).
  exists L'. split; [|apply Permutation_sym; exact P]. constructor.
  - auto.
  - eapply Permutation_NoDup; [apply Permutation_map; exact P|auto].
  - intros l. rewrite <- l_cs0. split; intros H; (eapply Permutation_in; [apply Permutation_map|exact H]); [apply Permutation_sym|]; exact P.
  - rewrite E, map_map. rewrite <- l_rows0, map_map in l_addr0.
    eapply Permutation_NoDup; [apply Permutation_map; exact P|exact l_addr0].
  - intros p r I. apply IN in I. destruct (l_path0 p r I) as (q & E1 & X). exists q. split; auto. destruct X as [X|(rq & X1 & X2)]; auto.
    right. exists rq. rewrite IN. auto.
  - rewrite Ep. auto.
Qed.

Section Layout.
  Variable L : list (list id * row).
  Variable g : gtk.
  Variable cs : list (list id).
  Hypothesis H : layout L g cs.

  Lemma lay_row : forall r, In r (rows g) -> exists p, In (p, r) L.
  Proof. intros r Hr. rewrite <- (l_rows _ _ _ H) in Hr. apply in_map_iff in Hr. destruct Hr as ([p r'] & <- & I). exists p. auto. Qed.
  Lemma lay_in : forall p r, In (p, r) L -> In r (rows g).
  Proof. intros p r I. rewrite <- (l_rows _ _ _ H). apply (in_map snd) in I. auto. Qed.
  Lemma lay_cs : forall p, In p cs -> exists r, In (p, r) L.
  Proof. intros p I. apply (l_cs _ _ _ H) in I. apply in_map_iff in I. destruct I as ([p' r] & <- & I). exists r. auto. Qed.
  Lemma lay_in_cs : forall p r, In (p, r) L -> In p cs.
  Proof. intros p r I. apply (l_cs _ _ _ H). apply (in_map fst) in I. auto. Qed.
  Lemma lay_fun : forall p r r', In (p, r) L -> In (p, r') L -> r = r'.
  Proof. intros p r r' I I'. pose proof (NoDup_map_inj _ _ fst L _ _ (l_nd _ _ _ H) I I' eq_refl) as E. congruence. Qed.
  Lemma lay_addr : forall p r p' r', In (p, r) L -> In (p', r') L -> r_addr r = r_addr r' -> p = p' /\ r = r'.
  Proof.
    intros p r p' r' I I' E.
    assert (X : NoDup (map (fun z => r_addr (snd z)) L)).
    { rewrite <- (map_map snd r_addr), (l_rows _ _ _ H). apply (l_addr _ _ _ H). }
    pose proof (NoDup_map_inj _ _ _ L _ _ X I I' E) as Z. inversion Z. auto.
  Qed.
  Lemma lay_row_at : forall a r, row_at a g = Some r -> In r (rows g) /\ r_addr r = a.
  Proof. intros a r E. apply find_some in E. destruct E as [E1 E2]. apply Nat.eqb_eq in E2. auto. Qed.
  Lemma lay_row_at_ok : forall p r, In (p, r) L -> row_at (r_addr r) g = Some r.
  Proof.
    intros p r I. unfold row_at. destruct (find (fun r0 => Nat.eqb (r_addr r0) (r_addr r)) (rows g)) as [r'|] eqn:E.
    - apply find_some in E. destruct E as [E1 E2]. apply Nat.eqb_eq in E2. destruct (lay_row r' E1) as (p' & I').
      destruct (lay_addr p r p' r' I I') as [_ ->]; auto.
    - exfalso. pose proof (find_none _ _ E r (lay_in p r I)) as X. cbn beta in X. rewrite Nat.eqb_refl in X. discriminate.
  Qed.
End Layout.

Definition addr_of (o : option row) : option nat := option_map r_addr o.

(** [my_get_iter] finds the row and only changes the cache. *)
Definition found (L : list (list id * row)) (p : list id) (it : option nat) : Prop :=
  (p = [] /\ it = None) \/ exists r, In (p, r) L /\ it = Some (r_addr r).

Definition recached (L : list (list id * row)) (g g' : gtk) : Prop :=
  rows g' = rows g /\ clock g' = clock g /\ cache_position g' = cache_position g /\
  forall q, pget q (cache_paths g') = pget q (cache_paths g) \/ exists r, In (q, r) L /\ pget q (cache_paths g') = Some (Some (r_addr r)).

Lemma recached_refl : forall L g, recached L g g.
Proof. intros. repeat (split; auto). Qed.

Lemma layout_recached : forall L g g' cs, layout L g cs -> recached L g g' -> layout L g' cs.
Proof. intros L g g' cs [] (E1 & E2 & E3 & _). constructor; rewrite ?E1, ?E3; auto. Qed.

Lemma cache_recached : forall L g g' cs p, layout L g cs -> recached L g g' -> cache_good L g p -> cache_good L g' p.
Proof.
  intros L g g' cs p HL (_ & _ & _ & E) C a q r Hp Hq Ha Hi. destruct (E p) as [E1|(r' & I & E1)].
  - apply (C a q r); auto. congruence.
  - rewrite E1 in Hp. inversion Hp; subst. destruct (lay_addr _ _ _ HL q r p r' Hq I); auto.
Qed.

Lemma store_children_In : forall L g cs q it r, layout L g cs -> found L q it -> In r (store_children it g) <-> In (q ++ [r_id r], r) L.
Proof.
  intros L g cs q it r HL F. unfold store_children. rewrite filter_In. split.
  - intros [I P]. destruct (lay_row _ _ _ HL r I) as (p & Ip). destruct (l_path _ _ _ HL p r Ip) as (q' & -> & X).
    destruct F as [[-> ->]|(rq & Iq & ->)]; unfold parent_is in P; destruct (r_parent r) as [b|] eqn:Er; try discriminate.
    + destruct X as [[-> _]|(rq & _ & Z)]; [auto|discriminate].
    + destruct X as [[_ Z]|(rq' & Iq' & Z)]; [discriminate|]. inversion Z; subst. apply Nat.eqb_eq in P.
      destruct (lay_addr _ _ _ HL q rq q' rq' Iq Iq' P) as [<- _]. auto.
  - intros Ip. split; [apply (lay_in _ _ _ HL _ _ Ip)|]. destruct (l_path _ _ _ HL _ r Ip) as (q' & E & X). apply app_inj_tail in E. destruct E as [<- _].
    unfold parent_is. destruct F as [[-> ->]|(rq & Iq & ->)].
    + destruct X as [[_ ->]|(rq & Iq & _)]; auto. destruct (l_path _ _ _ HL _ _ Iq) as (z & E & _). destruct z; discriminate.
    + destruct X as [[-> _]|(rq' & Iq' & ->)].
      * destruct (l_path _ _ _ HL _ _ Iq) as (z & E & _). destruct z; discriminate.
      * rewrite (lay_fun _ _ _ HL _ _ _ Iq Iq'). apply Nat.eqb_refl.
Qed.

Lemma lay_prefix : forall L g cs q n, layout L g cs -> In (q ++ [n]) cs -> q = [] \/ In q cs.
Proof.
  intros L g cs q n HL I. destruct (lay_cs _ _ _ HL _ I) as (r & Ir). destruct (l_path _ _ _ HL _ _ Ir) as (q' & E & X).
  apply app_inj_tail in E. destruct E as [<- _]. destruct X as [[-> _]|(rq & Iq & _)]; auto. right. apply (lay_in_cs _ _ _ HL _ _ Iq).
Qed.

Lemma get_iter : forall L cs rp g, layout L g cs -> (forall p, In p cs -> cache_good L g p) -> (rp = [] \/ In (rev rp) cs) ->
  exists g' it, my_get_iter_rev rp g = (g', it) /\ found L (rev rp) it /\ recached L g g'.
Proof.
  intros L cs. induction rp as [|n rp IH]; intros g HL HC HI.
  { exists g, None. split; [reflexivity|]. split; [left; auto|apply recached_refl]. }
  destruct HI as [HI|HI]; [discriminate|]. cbn [my_get_iter_rev]. cbv zeta.
  cbn [rev] in HI |- *. set (p := rev rp ++ [n]) in *.
  assert (Lp : last p "" = n) by (unfold p; apply last_last).
  destruct (lay_cs _ _ _ HL p HI) as (r0 & I0).
  assert (Id0 : r_id r0 = n) by (destruct (l_path _ _ _ HL _ _ I0) as (q & E & _); apply app_inj_tail in E; destruct E; auto).
  destruct (match pget p (cache_paths g) with Some (Some a) => match row_at a g with Some r => if String.eqb n (r_id r) then Some a else None | None => None end | _ => None end) as [a|] eqn:EC.
  - exists g, (Some a). split; auto. split; [|apply recached_refl]. right.
    destruct (pget p (cache_paths g)) as [[a'|]|] eqn:E1; try discriminate.
    destruct (row_at a' g) as [r|] eqn:E2; try discriminate. destruct (String.eqb n (r_id r)) eqn:E3; try discriminate.
    inversion EC; subst a'. apply String.eqb_eq in E3. destruct (lay_row_at _ _ _ E2) as [Ir Ea].
    destruct (lay_row _ _ _ HL r Ir) as (q & Iq).
    assert (q = p) by (apply (HC p HI a q r); auto; congruence). subst q. exists r. split; congruence.
  - clear EC. destruct (IH g HL HC) as (g1 & it & E & F & R).
    { destruct (lay_prefix _ _ _ _ n HL HI) as [X|]; auto. left. apply (f_equal (@rev id)) in X. rewrite rev_involutive in X. auto. }
    rewrite E. pose proof (layout_recached _ _ _ _ HL R) as HL1.
    assert (CH : forall r, In r (store_children it g1) /\ r_id r = n <-> r = r0).
    { intros r. rewrite (store_children_In _ _ _ _ _ r HL1 F). split.
      - intros [I Ei]. rewrite Ei in I. apply (lay_fun _ _ _ HL p); auto.
      - intros ->. rewrite Id0. auto. }
    set (res := match match pget p (cache_position g1) with
              | Some (S k) => match nth_error (store_children it g1) (S k) with
                              | Some r => if String.eqb (r_id r) n then Some (r_addr r) else None
                              | None => None end
              | _ => None end with
              | Some a => Some a
              | None => option_map r_addr (find (fun r => String.eqb (r_id r) n) (store_children it g1)) end).
    assert (RS : res = Some (r_addr r0)).
    { unfold res. assert (Fnd : option_map r_addr (find (fun r => String.eqb (r_id r) n) (store_children it g1)) = Some (r_addr r0)).
      { destruct (find (fun r => String.eqb (r_id r) n) (store_children it g1)) as [r|] eqn:E1.
        - apply find_some in E1. destruct E1 as [E1 E2]. apply String.eqb_eq in E2. simpl. rewrite (proj1 (CH r)); auto.
        - exfalso. pose proof (proj2 (CH r0) eq_refl) as [X1 X2]. pose proof (find_none _ _ E1 r0 X1) as X. cbn beta in X. rewrite X2, eqb_refl in X. discriminate. }
      destruct (pget p (cache_position g1)) as [[|k]|]; auto.
      destruct (nth_error (store_children it g1) (S k)) as [r|] eqn:E1; auto. destruct (String.eqb (r_id r) n) eqn:E2; auto.
      apply nth_error_In in E1. apply String.eqb_eq in E2. rewrite (proj1 (CH r)); auto. }
    rewrite RS. eexists _, _. split; [reflexivity|]. split; [right; exists r0; auto|].
    destruct R as (R1 & R2 & R3 & R4). split; auto. split; auto. split; auto. intros q. cbn [cache_paths].
    rewrite pget_pset. destruct (path_eqb q p) eqn:Eq; [|apply R4]. apply path_eqb_eq in Eq. subst q. right. exists r0. auto.
Qed.

Lemma get_iter_fwd : forall L cs p g, layout L g cs -> (forall p, In p cs -> cache_good L g p) -> (p = [] \/ In p cs) ->
  exists g' it, my_get_iter p g = (g', it) /\ found L p it /\ recached L g g'.
Proof.
  intros L cs p g HL HC HI. unfold my_get_iter. destruct (get_iter L cs (rev p) g HL HC) as (g' & it & E & F & R).
  - rewrite rev_involutive. destruct HI as [->|]; auto.
  - rewrite rev_involutive in F. exists g', it. auto.
Qed.

(** ** One signal *)
Definition evolves (pf : platform) (L : list (list id * row)) (g : gtk) (L' : list (list id * row)) (g' : gtk) : Prop :=
  clock g <= clock g' /\
  (forall q, pget q (cache_paths g') = pget q (cache_paths g) \/
    (exists r, In (q, r) L /\ pget q (cache_paths g') = Some (Some (r_addr r))) \/
    (exists o, pget q (cache_paths g') = Some o /\ forall a, o = Some a -> exists q' r, In (q', r) L /\ r_addr r = a /\ r_id r <> last q "")) /\
  (forall q r', In (q, r') L' -> (exists r, In (q, r) L /\ r_addr r' = r_addr r /\ r_id r' = r_id r) \/
    (clock g < clock g' /\ exists live, r_addr r' = address pf (clock g) live)).

Lemma sorted_ok : forall pf L g cs L2 g2, faithful pf -> layout L2 g2 cs -> evolves pf L g L2 g2 ->
  exists L', layout L' (store_sort pf g2) cs /\ evolves pf L g L' (store_sort pf g2) /\ Permutation L' L2.
Proof.
  intros pf L g cs L2 g2 AL HL (V1 & V2 & V3).
  destruct (layout_sort L2 g2 (store_sort pf g2) cs HL (proj2 AL _ _) eq_refl) as (L' & HL' & P). exists L'. split; auto. split; [|exact P].
  split; [exact V1|]. split; [exact V2|]. intros q r I. apply (V3 q r). eapply Permutation_in; [exact P|exact I].
Qed.

Lemma added_ok : forall pf T L g cs n q, faithful pf -> layout L g cs -> (forall p, In p cs -> cache_good L g p) ->
  has_node T n = true -> ~ In (q ++ [n]) cs -> q = [] \/ In q cs ->
  exists g' L', on_signal pf T (SAdded n (q ++ [n])) g = (g', Ok tt) /\ layout L' g' (cs ++ [q ++ [n]]) /\ evolves pf L g L' g' /\
    exists r, ~ In (r_addr r) (map r_addr (rows g)) /\ r_id r = n /\ Permutation L' (L ++ [(q ++ [n], r)]).
Proof.
  intros pf T L g cs n q AL HL HC Hn Hp Hq. cbn [on_signal]. unfold add_task.
  unfold has_node, dmem in Hn. destruct (dget n (nodes T)) as [nd|]; [|discriminate]. rewrite removelast_last.
  destruct (get_iter_fwd L cs q g HL HC Hq) as (g1 & it & E & F & R). rewrite E. pose proof (layout_recached _ _ _ _ HL R) as HL1.
  cbn [rows clock cache_paths cache_position]. set (a := address pf (clock g1) (map r_addr (rows g1))). set (r := mkRow a it n (column pf (data nd))).
  pose proof (proj1 AL (clock g1) (map r_addr (rows g1))) as Fr. fold a in Fr.
  match goal with |- exists _ _, (store_sort _ ?g2, _) = _ /\ _ => set (g2' := g2) end.
  enough (Y : layout (L ++ [(q ++ [n], r)]) g2' (cs ++ [q ++ [n]]) /\ evolves pf L g (L ++ [(q ++ [n], r)]) g2').
  { destruct Y as [Y1 Y2]. destruct (sorted_ok pf L g _ _ g2' AL Y1 Y2) as (L' & Z1 & Z2 & Z3). exists (store_sort pf g2'), L'. split; auto. split; auto. split; auto.
    exists r. split; auto. destruct R as (R1 & _). rewrite <- R1. auto. }
  unfold g2'. split.
  - destruct HL1. constructor; unfold store_insert; cbn [rows clock cache_paths cache_position].
    + rewrite map_app, l_rows0. auto.
    + rewrite map_app. simpl. apply NoDup_snoc; auto. rewrite l_cs0. auto.
    + intros l. rewrite map_app, !in_app_iff, l_cs0. simpl. tauto.
    + rewrite map_app. simpl. apply NoDup_snoc; auto.
    + intros p r' I. apply in_app_iff in I. destruct I as [I|[I|[]]].
      * destruct (l_path0 p r' I) as (q' & Ep & X). exists q'. split; auto. destruct X as [X|(rq & X1 & X2)]; auto.
        right. exists rq. rewrite in_app_iff. auto.
      * inversion I; subst. exists q. split; auto. destruct F as [[-> ->]|(rq & I1 & ->)]; [left; auto|right]. exists rq. rewrite in_app_iff. auto.
    + intros p I. rewrite pget_pset. destruct (path_eqb p (q ++ [n])) eqn:Ep; [discriminate|].
      apply in_app_iff in I. destruct I as [I|[I|[]]]; [auto|]. subst. rewrite path_eqb_refl' in Ep. discriminate.
  - destruct R as (R1 & R2 & R3 & R4). split; [|split].
    + cbn [store_insert clock]. lia.
    + intros p. cbn [store_insert cache_paths]. destruct (R4 p); auto.
    + intros p r' I. apply in_app_iff in I. destruct I as [I|[I|[]]]; [left; exists r'; auto|]. right. inversion I; subst.
      cbn [store_insert clock]. split; [lia|]. exists (map r_addr (rows g1)). simpl. unfold a. rewrite R2. auto.
Qed.

Lemma map_snd_filter : forall (f : list id * row -> bool) (h : row -> bool) L, (forall z, In z L -> f z = h (snd z)) ->
  map snd (filter f L) = filter h (map snd L).
Proof.
  intros f h L. induction L as [|z L IH]; simpl; auto. intros H. rewrite (H z) by auto. destruct (h (snd z)); simpl; rewrite IH; auto.
Qed.

Lemma deleted_ok : forall pf T L g cs n q, layout L g cs -> (forall p, In p cs -> cache_good L g p) ->
  In (q ++ [n]) cs -> (forall below, below <> [] -> ~ In (q ++ [n] ++ below) cs) ->
  exists g' L', on_signal pf T (SDeleted n (q ++ [n])) g = (g', Ok tt) /\
    layout L' g' (filter (fun p => negb (path_eqb p (q ++ [n]))) cs) /\ evolves pf L g L' g' /\
    L' = filter (fun z => negb (path_eqb (fst z) (q ++ [n]))) L.
Proof.
  intros pf T L g cs n q HL HC Hp Hb. cbn [on_signal]. unfold remove_task. set (p := q ++ [n]) in *.
  destruct (get_iter_fwd L cs p g HL HC (or_intror Hp)) as (g1 & it & E & F & R). rewrite E. pose proof (layout_recached _ _ _ _ HL R) as HL1.
  destruct F as [[Bad _]|(r & Ir & ->)]; [unfold p in Bad; destruct q; discriminate|].
  rewrite (lay_row_at_ok _ _ _ HL1 p r Ir).
  destruct (l_path _ _ _ HL1 p r Ir) as (q' & Ep & X). unfold p in Ep. apply app_inj_tail in Ep. destruct Ep as [<- En].
  rewrite <- En, eqb_refl. cbn [store_remove rows clock cache_paths cache_position].
  destruct (pget p (cache_position g1)) as [k|] eqn:Ek; [|exfalso; apply (l_pos _ _ _ HL1 p Hp); auto].
  eexists _, (filter (fun z => negb (path_eqb (fst z) p)) L). split; [reflexivity|].
  assert (Lf : forall r', In r' (rows g1) -> r_parent r' <> Some (r_addr r)).
  { intros r' I' P'. destruct (lay_row _ _ _ HL1 r' I') as (p' & Ip'). destruct (l_path _ _ _ HL1 _ _ Ip') as (q' & -> & [[_ Z]|(rq & Iq & Z)]); [congruence|].
    assert (Ea : r_addr rq = r_addr r) by congruence. destruct (lay_addr _ _ _ HL1 q' rq p r Iq Ir Ea) as [-> _].
    apply (Hb [r_id r']); [discriminate|]. unfold p in Ip'. rewrite <- app_assoc in Ip'. apply (lay_in_cs _ _ _ HL1 _ _ Ip'). }
  assert (Sep : forall z, In z L -> negb (path_eqb (fst z) p) = negb (Nat.eqb (r_addr (snd z)) (r_addr r))).
  { intros [p' r'] I'. simpl. f_equal. destruct (Nat.eqb (r_addr r') (r_addr r)) eqn:Ea.
    - apply Nat.eqb_eq in Ea. destruct (lay_addr _ _ _ HL1 p' r' p r I' Ir Ea) as [-> _]. apply path_eqb_refl'.
    - apply path_eqb_neq. intros ->. rewrite (lay_fun _ _ _ HL1 _ _ _ I' Ir), Nat.eqb_refl in Ea. discriminate. }
  assert (Rw : map snd (filter (fun z => negb (path_eqb (fst z) p)) L) = drop_rows (r_addr r) (rows g1)).
  { rewrite drop_rows_leaf by auto. rewrite <- (l_rows _ _ _ HL1). apply map_snd_filter. auto. }
  assert (Sub : forall A (f : A -> bool) B (h : A -> B) l, NoDup (map h l) -> NoDup (map h (filter f l))).
  { intros A f B h l. induction l as [|z l IHl]; simpl; auto. intros N. inversion N as [|? ? N1 N2]; subst. destruct (f z); auto. simpl. constructor; auto.
    intros I'. apply N1. apply in_map_iff in I'. destruct I' as (y & <- & I'). apply filter_In in I'. apply in_map. tauto. }
  split; [|split; [|reflexivity]].
  - constructor; cbn [rows clock cache_paths cache_position].
    + auto.
    + apply Sub. apply (l_nd _ _ _ HL1).
    + intros l. rewrite filter_In, in_map_iff. split.
      * intros ([p' r'] & <- & I'). apply filter_In in I'. destruct I' as [I1 I2]. split; auto. apply (lay_in_cs _ _ _ HL1 _ _ I1).
      * intros [I1 I2]. destruct (lay_cs _ _ _ HL1 _ I1) as (r' & I'). exists (l, r'). split; auto. apply filter_In. auto.
    + rewrite drop_rows_leaf by auto. apply Sub. apply (l_addr _ _ _ HL1).
    + intros p' r' I'. apply filter_In in I'. destruct I' as [I1 I2]. simpl in I2. destruct (l_path _ _ _ HL1 p' r' I1) as (q' & Ep & Y). exists q'. split; auto.
      destruct Y as [Y|(rq & Y1 & Y2)]; auto. right. exists rq. split; auto. apply filter_In. split; auto. simpl.
      destruct (path_eqb q' p) eqn:Eq; auto. exfalso. apply path_eqb_eq in Eq. subst q'. rewrite (lay_fun _ _ _ HL1 _ _ _ Y1 Ir) in Y2.
      apply (Lf r'); auto. apply (lay_in _ _ _ HL1 _ _ I1).
    + intros p' I'. apply filter_In in I'. destruct I' as [I1 I2]. apply negb_true_iff in I2. rewrite pget_pdel by auto. apply (l_pos _ _ _ HL1). auto.
  - destruct R as (R1 & R2 & R3 & R4). split; [|split].
    + cbn [clock]. lia.
    + intros p'. cbn [cache_paths]. rewrite pget_pset. destruct (path_eqb p' p) eqn:Ep; [|destruct (R4 p'); auto].
      apply path_eqb_eq in Ep. subst p'. right. right. eexists. split; [reflexivity|]. intros a Ha.
      assert (NDs : NoDup (map r_addr (store_children (r_parent r) g1))) by (apply Sub; apply (l_addr _ _ _ HL1)).
      destruct (next_row_In _ _ _ NDs Ha) as (Na & r2 & I2 & E2).
      assert (Fq : found L q (r_parent r)).
      { destruct X as [[-> ->]|(rq & X1 & ->)]; [left; auto|right; exists rq; auto]. }
      apply (store_children_In _ _ _ _ _ r2 HL1 Fq) in I2. exists (q ++ [r_id r2]), r2. split; auto. split; auto.
      intros Bad. unfold p in Bad. rewrite last_last in Bad. rewrite Bad in I2. apply Na.
      rewrite <- E2. f_equal. apply (lay_fun _ _ _ HL1 p); auto.
    + intros p' r' I'. apply filter_In in I'. left. exists r'. tauto.
Qed.

Lemma modified_ok : forall pf T L g cs n q, faithful pf -> layout L g cs -> (forall p, In p cs -> cache_good L g p) ->
  has_node T n = true -> In (q ++ [n]) cs ->
  exists g' L', on_signal pf T (SModified n (q ++ [n])) g = (g', Ok tt) /\ layout L' g' cs /\ evolves pf L g L' g' /\
    exists r nd, In (q ++ [n], r) L /\ dget n (nodes T) = Some nd /\
      forall z', In z' L' -> exists z, In z L /\ fst z' = fst z /\
        snd z' = if Nat.eqb (r_addr (snd z)) (r_addr r)
                 then mkRow (r_addr r) (r_parent (snd z)) n (match column pf (data nd) with Some v => Some v | None => r_col (snd z) end) else snd z.
Proof.
  intros pf T L g cs n q AL HL HC Hn Hp. cbn [on_signal]. unfold update_task.
  unfold has_node, dmem in Hn. destruct (dget n (nodes T)) as [nd|]; [|discriminate]. set (p := q ++ [n]) in *.
  destruct (get_iter_fwd L cs p g HL HC (or_intror Hp)) as (g1 & it & E & F & R). rewrite E. pose proof (layout_recached _ _ _ _ HL R) as HL1.
  destruct F as [[Bad _]|(r & Ir & ->)]; [unfold p in Bad; destruct q; discriminate|].
  set (f := fun z : row => if Nat.eqb (r_addr z) (r_addr r) then mkRow (r_addr r) (r_parent z) n (match column pf (data nd) with Some _ => column pf (data nd) | None => r_col z end) else z).
  match goal with |- exists _ _, (store_sort _ ?g2, _) = _ /\ _ => set (g2' := g2) end.
  enough (Y : layout (map (fun z => (fst z, f (snd z))) L) g2' cs /\ evolves pf L g (map (fun z => (fst z, f (snd z))) L) g2').
  { destruct Y as [Y1 Y2]. destruct (sorted_ok pf L g _ _ g2' AL Y1 Y2) as (L' & Z1 & Z2 & Z3). exists (store_sort pf g2'), L'.
    split; [reflexivity|]. split; [exact Z1|]. split; [exact Z2|]. exists r, nd. split; [exact Ir|]. split; [reflexivity|]. intros z' I.
    apply (Permutation_in _ Z3) in I. apply in_map_iff in I. destruct I as (z & <- & I). exists z. split; [exact I|]. split; [reflexivity|].
    cbn [snd]. unfold f. destruct (Nat.eqb _ _); [|reflexivity]. destruct (column pf (data nd)); reflexivity. }
  unfold g2'.
  assert (En : r_id r = n).
  { destruct (l_path _ _ _ HL1 p r Ir) as (q' & Ep & _). unfold p in Ep. apply app_inj_tail in Ep. destruct Ep; auto. }
  assert (Fa : forall z, r_addr (f z) = r_addr z).
  { intros z. unfold f. destruct (Nat.eqb (r_addr z) (r_addr r)) eqn:Ez; auto. apply Nat.eqb_eq in Ez. auto. }
  assert (Fp : forall z, r_parent (f z) = r_parent z) by (intros z; unfold f; destruct (Nat.eqb _ _); auto).
  assert (Fi : forall p' z, In (p', z) L -> r_id (f z) = r_id z).
  { intros p' z I'. unfold f. destruct (Nat.eqb (r_addr z) (r_addr r)) eqn:Ez; auto. apply Nat.eqb_eq in Ez. simpl.
    destruct (lay_addr _ _ _ HL1 p' z p r I' Ir Ez) as [_ ->]. auto. }
  split.
  - constructor; cbn [set_row rows clock cache_paths cache_position].
    + rewrite map_map. simpl. rewrite <- (l_rows _ _ _ HL1), map_map. auto.
    + rewrite map_map. simpl. apply (l_nd _ _ _ HL1).
    + intros l. rewrite map_map. simpl. apply (l_cs _ _ _ HL1).
    + fold f. rewrite map_map, (map_ext _ r_addr) by auto. apply (l_addr _ _ _ HL1).
    + intros p' r' I'. apply in_map_iff in I'. destruct I' as ([p2 r2] & E2 & I2). simpl in E2. inversion E2; subst p' r'.
      rewrite (Fi p2) by auto. rewrite Fp. destruct (l_path _ _ _ HL1 p2 r2 I2) as (q' & Ep & Y). exists q'. split; auto.
      destruct Y as [Y|(rq & Y1 & Y2)]; auto. right. exists (f rq). split; [|rewrite Fa; auto]. apply in_map_iff. exists (q', rq). auto.
    + apply (l_pos _ _ _ HL1).
  - destruct R as (R1 & R2 & R3 & R4). split; [|split].
    + cbn [set_row clock]. lia.
    + intros p'. cbn [set_row cache_paths]. destruct (R4 p'); auto.
    + intros p' r' I'. apply in_map_iff in I'. destruct I' as ([p2 r2] & E2 & I2). simpl in E2. inversion E2; subst p' r'. left. exists r2.
      rewrite Fa, (Fi p2) by auto. auto.
Qed.

Lemma signal_ok : forall pf T x L g cs cs', faithful pf -> layout L g cs -> (forall p, In p cs -> cache_good L g p) ->
  hear cs x cs' -> names_live (T, x) ->
  exists g' L', on_signal pf T x g = (g', Ok tt) /\ layout L' g' cs' /\ evolves pf L g L' g'.
Proof.
  intros pf T x L g cs cs' AL HL HC Hh Hn. destruct Hh as [cs q n N1 N2|cs q n N1 N2|cs q n N1|cs n a].
  - destruct (added_ok pf T L g cs n q AL) as (g' & L' & H1 & H2 & H3 & _); auto. exists g', L'. auto.
  - destruct (deleted_ok pf T L g cs n q) as (g' & L' & H1 & H2 & H3 & _); auto. exists g', L'. auto.
  - destruct (modified_ok pf T L g cs n q AL) as (g' & L' & H1 & H2 & H3 & _); auto. exists g', L'. auto.
  - exists g, L. split; [reflexivity|]. split; auto. split; [lia|]. split; [auto|]. intros q r I. left. exists r. auto.
Qed.

(** ** Without reuse of addresses *)
Record fresh_caches (pf : platform) (L : list (list id * row)) (g : gtk) : Prop := {
  fc_good : forall p, cache_good L g p;
  fc_cache : forall p a, pget p (cache_paths g) = Some (Some a) -> exists k live, k < clock g /\ a = address pf k live;
  fc_rows : forall p r, In (p, r) L -> exists k live, k < clock g /\ r_addr r = address pf k live
}.

Lemma fresh_evolves : forall pf L g cs L' g', never_reuses pf -> layout L g cs -> fresh_caches pf L g -> evolves pf L g L' g' ->
  fresh_caches pf L' g'.
Proof.
  intros pf L g cs L' g' NR HL [G C R] (V1 & V2 & V3).
  assert (C' : forall p a, pget p (cache_paths g') = Some (Some a) -> exists k live, k < clock g /\ a = address pf k live).
  { intros p a Hp. destruct (V2 p) as [E|[(r & I & E)|(o & E & Y)]]; rewrite E in Hp.
    - apply (C p). auto.
    - inversion Hp; subst. apply (R p). auto.
    - inversion Hp; subst. destruct (Y a eq_refl) as (q' & r & I & <- & _). apply (R q'). auto. }
  constructor.
  - intros p a q r' Hp Hq Ha Hi. destruct (V3 q r' Hq) as [(r & I & E1 & E2)|(_ & live & E1)].
    + destruct (V2 p) as [E|[(r0 & I0 & E)|(o & E & Y)]]; rewrite E in Hp.
      * apply (G p a q r); congruence.
      * inversion Hp as [E0]. destruct (lay_addr _ _ _ HL q r p r0 I I0); auto. congruence.
      * inversion Hp; subst o. destruct (Y a eq_refl) as (q' & r0 & I0 & E0 & Ne). exfalso. apply Ne.
        destruct (lay_addr _ _ _ HL q r q' r0 I I0) as [_ <-]; congruence.
    + destruct (C' p a Hp) as (k & lv & Hk & Ea). exfalso. rewrite E1 in Ha. rewrite Ea in Ha. apply NR in Ha. lia.
  - intros p a Hp. destruct (C' p a Hp) as (k & lv & Hk & Ea). exists k, lv. split; auto. lia.
  - intros p r' Hp. destruct (V3 p r' Hp) as [(r & I & E1 & E2)|(Lt & live & E1)].
    + destruct (R p r I) as (k & lv & Hk & Ea). exists k, lv. split; [lia|congruence].
    + exists (clock g), live. auto.
Qed.

Definition follows (pf : platform) (g : gtk) (cs : list (list id)) : Prop :=
  exists L, layout L g cs /\ fresh_caches pf L g.

Lemma follows_new : forall pf, follows pf new_gtk [].
Proof.
  intros pf. exists []. split; constructor; simpl; try constructor; try tauto; try discriminate.
Qed.

Lemma follows_signal : forall pf T x g cs cs', faithful pf -> never_reuses pf -> follows pf g cs -> hear cs x cs' -> names_live (T, x) ->
  exists g', on_signal pf T x g = (g', Ok tt) /\ follows pf g' cs'.
Proof.
  intros pf T x g cs cs' AL NR (L & HL & FC) Hh Hn.
  destruct (signal_ok pf T x L g cs cs' AL HL (fun p _ => fc_good _ _ _ FC p) Hh Hn) as (g' & L' & E & HL' & EV).
  exists g'. split; auto. exists L'. split; auto. apply (fresh_evolves pf L g cs L' g'); auto.
Qed.

Lemma follows_sort : forall pf g g' cs, follows pf g cs -> Permutation (rows g') (rows g) -> clock g' = clock g -> cache_paths g' = cache_paths g ->
  cache_position g' = cache_position g -> follows pf g' cs.
Proof.
  intros pf g g' cs (L & HL & [G C R]) P Ec Ep Eq. destruct (layout_sort L g g' cs HL P Eq) as (L' & HL' & PL). exists L'. split; auto.
  assert (IN : forall z, In z L' -> In z L) by (intros z; apply Permutation_in; exact PL). constructor.
  - intros p a q r H1 H2. rewrite Ep in H1. apply (G p a q r); auto.
  - intros p a. rewrite Ep, Ec. apply C.
  - intros p r I. rewrite Ec. apply (R p r). auto.
Qed.

Lemma hear_first : forall x l cs cs', hear_all cs (x :: l) cs' -> exists cs1, hear cs x cs1 /\ hear_all cs1 l cs'.
Proof.
  intros x l cs cs' H. change (x :: l) with ([x] ++ l) in H. apply hear_split in H. destruct H as (m & H1 & H2). exists m. split; auto.
  apply (hear_all_snoc cs [] x) in H1. destruct H1 as (c & H1 & H3). apply hear_all_nil in H1. subst. auto.
Qed.

Lemma follows_signals : forall pf T l g cs cs', faithful pf -> never_reuses pf -> follows pf g cs -> hear_all cs l cs' ->
  (forall x, In x l -> names_live (T, x)) ->
  exists g', on_signals pf T l g = (g', Ok tt) /\ follows pf g' cs'.
Proof.
  intros pf T l. induction l as [|x l IH]; intros g cs cs' AL NR F H Hn.
  - apply hear_all_nil in H. subst. exists g. auto.
  - apply hear_first in H. destruct H as (cs1 & H1 & H2).
    destruct (follows_signal pf T x g cs cs1 AL NR F H1) as (g1 & E1 & F1); [apply Hn; left; auto|].
    cbn [on_signals]. rewrite E1. apply (IH g1 cs1 cs'); auto.
Qed.

(** ** The rows are at their paths *)
Lemma layout_at : forall L g cs, layout L g cs -> forall r l, at_path (rows g) r l <-> In (l, r) L.
Proof.
  intros L g cs HL.
  assert (Up : forall r l, at_path (rows g) r l -> In (l, r) L).
  { intros r l H. induction H as [r I P|r q l I P H IH].
    - destruct (lay_row _ _ _ HL r I) as (p & Ip). destruct (l_path _ _ _ HL p r Ip) as (q & -> & [[-> _]|(rq & _ & X)]); [auto|congruence].
    - destruct (lay_row _ _ _ HL r I) as (p & Ip). destruct (l_path _ _ _ HL p r Ip) as (q' & -> & [[_ X]|(rq & Iq & X)]); [congruence|].
      assert (Ea : r_addr rq = r_addr q) by congruence. destruct (lay_addr _ _ _ HL q' rq l q Iq IH Ea) as [-> _]. auto. }
  intros r l. split; auto. revert r. induction l as [|n l IH] using rev_ind; intros r I.
  - destruct (l_path _ _ _ HL _ _ I) as (q & E & _). destruct q; discriminate.
  - destruct (l_path _ _ _ HL _ _ I) as (q & E & X). apply app_inj_tail in E. destruct E as [<- ->]. pose proof (lay_in _ _ _ HL _ _ I) as Ir.
    destruct X as [[-> P]|(rq & Iq & P)]; [apply (at_top _ r); auto|]. apply (at_below _ r rq l); auto.
Qed.

Lemma layout_shows : forall L g cs X, layout L g cs -> (forall l, In l cs <-> X l) -> shows (rows g) X.
Proof.
  intros L g cs X HL HX. split; [apply (l_addr _ _ _ HL)|]. split; [|split; [|split]].
  - intros r I. destruct (lay_row _ _ _ HL r I) as (p & Ip). exists p. apply (layout_at _ _ _ HL). auto.
  - intros r l H. apply HX. apply (layout_at _ _ _ HL) in H. apply (lay_in_cs _ _ _ HL _ _ H).
  - intros l Hl. apply HX in Hl. destruct (lay_cs _ _ _ HL _ Hl) as (r & I). exists r. apply (layout_at _ _ _ HL). auto.
  - intros r r' l H H'. apply (layout_at _ _ _ HL) in H, H'. apply (lay_fun _ _ _ HL l); auto.
Qed.

(** ** Nodes at one place only: addresses may be reused *)
Lemma one_place_cache : forall L g cs, layout L g cs -> one_place cs -> forall p, In p cs -> cache_good L g p.
Proof.
  intros L g cs HL OP p Hp a q r _ Hq _ Hi. apply OP; auto; [apply (lay_in_cs _ _ _ HL _ _ Hq)|].
  destruct (l_path _ _ _ HL _ _ Hq) as (z & -> & _). rewrite last_last. auto.
Qed.

Lemma tidy_shows : forall pf l g L cs cs', faithful pf -> layout L g cs -> tidy_signals cs l cs' ->
  exists g', on_heard pf l g = (g', Ok tt) /\ exists L', layout L' g' cs'.
Proof.
  intros pf l g L cs cs' AL HL H. revert g L HL. induction H as [cs O|cs [T x] cs1 l cs2 O Hh Hn H IH]; intros g L HL.
  - exists g. split; [reflexivity|eauto].
  - destruct (signal_ok pf T x L g cs cs1 AL HL (one_place_cache L g cs HL O) Hh Hn) as (g1 & L1 & E & HL1 & _).
    cbn [on_heard]. rewrite E. apply (IH g1 L1 HL1).
Qed.
