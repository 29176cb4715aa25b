(** The widget: places of rows, drag and drop. *)
From Coq Require Import Permutation.
From Verif Require Import Base BaseFacts MainTree Spec MainFacts MainReg MainTight Filters FTree SpecApi
  SpecView SpecViewing FtBase FtWalk FtEdge FtUp FtFront FtDown FtSync FtTree FtOps FtSent FtKeep FtState FtView FtThm FtSignals FtHist FtQuiet FtRead
  Gtk SpecGtk GtkFacts GtkView GtkRemove Widget SpecWidget ClientFacts WidgetFacts WidgetUse SpecStay StayFacts FtStay StayRows.
Open Scope f_scope.

Lemma walk_gone : forall ix g a, walk (Some a) ix g = None -> ix <> [].
Proof. intros ix g a H ->. discriminate. Qed.

Lemma walk_app : forall ix jx o g, (forall a, walk o ix g = Some a -> walk o (ix ++ jx) g = walk (Some a) jx g) /\
  (walk o ix g = None -> ix <> [] -> walk o (ix ++ jx) g = None).
Proof.
  induction ix as [|i ix IH]; intros jx o g; cbn [walk app].
  - split; [intros a ->; auto|]. intros _ []. auto.
  - destruct (nth_error (store_children o g) i) as [r|]; [|split; [discriminate|auto]].
    destruct (IH jx (Some (r_addr r)) g) as [A B]. split; auto. intros H _. apply B; auto. eapply walk_gone; eauto.
Qed.

Lemma walk_snoc : forall ix i g, walk None (ix ++ [i]) g =
  match ix with
  | [] => option_map r_addr (nth_error (store_children None g) i)
  | _ => match walk None ix g with Some a => option_map r_addr (nth_error (store_children (Some a) g) i) | None => None end
  end.
Proof.
  intros ix i g. destruct ix as [|j ix].
  - cbn [walk app]. destruct (nth_error _ i); auto.
  - destruct (walk_app (j :: ix) [i] None g) as [A B]. destruct (walk None (j :: ix) g) as [a|].
    + rewrite (A a eq_refl). cbn [walk]. destruct (nth_error _ i); auto.
    + apply B; auto. discriminate.
Qed.

Section Places.
  Variable L : list (list id * row).
  Variable g : gtk.
  Variable cs : list (list id).
  Hypothesis HL : layout L g cs.

  (** Index paths and paths of nodes go together. *)
  Lemma walk_path : forall ix a, walk None ix g = Some a -> exists l, spot L l a /\ length l = length ix.
  Proof.
    intros ix. induction ix as [|i ix IH] using rev_ind; intros a H; [discriminate|]. rewrite walk_snoc in H.
    assert (Go : forall o q, found L q o -> option_map r_addr (nth_error (store_children o g) i) = Some a -> exists l, spot L l a /\ length l = S (length q)).
    { intros o q Fo E. destruct (nth_error (store_children o g) i) as [r|] eqn:En; [|discriminate]. inversion E; subst. apply nth_error_In in En.
      apply (store_children_In _ _ _ _ _ _ HL Fo) in En. exists (q ++ [r_id r]). split; [exists r; auto|]. rewrite app_length. simpl. lia. }
    rewrite app_length. simpl. destruct ix as [|j ix].
    - destruct (Go None [] (or_introl (conj eq_refl eq_refl)) H) as (l & S & E). exists l. split; auto.
    - destruct (walk None (j :: ix) g) as [b|]; [|discriminate]. destruct (IH b eq_refl) as (l & (r & I & <-) & E).
      destruct (Go (Some (r_addr r)) l (or_intror (ex_intro _ r (conj I eq_refl))) H) as (l' & S' & E'). exists l'. split; auto. rewrite E', E. simpl. lia.
  Qed.

  Lemma position_nth : forall a l i, NoDup (map r_addr l) -> (position_in a l = Some i <-> exists r, nth_error l i = Some r /\ r_addr r = a).
  Proof.
    intros a l. induction l as [|x l IH]; intros i ND; simpl.
    - split; [discriminate|]. intros (r & E & _). destruct i; discriminate.
    - inversion ND as [|? ? N1 N2]; subst. destruct (Nat.eqb (r_addr x) a) eqn:E.
      + apply Nat.eqb_eq in E. split.
        * intros H. inversion H; subst i. exists x. auto.
        * intros (r & Er & Ea). destruct i as [|i]; [auto|]. exfalso. simpl in Er. apply N1. apply nth_error_In in Er. rewrite E, <- Ea. apply in_map. auto.
      + apply Nat.eqb_neq in E. destruct i as [|i].
        * split; [destruct (position_in a l); discriminate|]. intros (r & Er & Ea). simpl in Er. inversion Er; subst. contradiction.
        * simpl. rewrite <- IH by auto. destruct (position_in a l) as [k|]; simpl; split; intros H; inversion H; auto.
  Qed.

  Lemma children_nodup : forall o, NoDup (map r_addr (store_children o g)).
  Proof.
    intros o. unfold store_children. pose proof (l_addr _ _ _ HL) as N. revert N. generalize (rows g) as rs. intros rs. induction rs as [|x rs IH]; simpl; auto.
    intros N. inversion N as [|? ? N1 N2]; subst. destruct (parent_is o x); auto. simpl. constructor; auto.
    intros H. apply N1. apply in_map_iff in H. destruct H as (r & <- & H). apply filter_In in H. apply in_map. tauto.
  Qed.

  Lemma indices_walk : forall f l a, spot L l a -> length l <= f -> exists ix, indices_up f a g = Some ix /\ forall jx, walk None jx g = Some a <-> jx = ix.
  Proof.
    intros f. induction f as [|f IH]; intros l a S Hf.
    { exfalso. apply (spot_nonempty _ _ _ HL _ _ S). destruct l; auto. simpl in Hf. lia. }
    destruct (exists_last (spot_nonempty _ _ _ HL _ _ S)) as (q & n & ->). destruct (spot_row _ _ _ HL _ _ S) as (r & R1 & R2 & R3 & R4).
    rewrite last_last in R4. cbn [indices_up]. rewrite R1. rewrite app_length in Hf. simpl in Hf.
    assert (Go : forall o, found L q o -> exists i, position_in a (store_children o g) = Some i /\ forall j, option_map r_addr (nth_error (store_children o g) j) = Some a <-> j = i).
    { intros o Fo. rewrite <- R4 in R3. apply (store_children_In _ _ _ _ _ _ HL Fo) in R3. apply In_nth_error in R3. destruct R3 as (i & Ei). exists i.
      assert (P : position_in a (store_children o g) = Some i) by (apply position_nth; [apply children_nodup|]; exists r; auto). split; auto.
      intros j. split.
      - intros H. destruct (nth_error (store_children o g) j) as [r'|] eqn:Ej; [|discriminate]. inversion H as [H'].
        assert (P' : position_in a (store_children o g) = Some j) by (apply position_nth; [apply children_nodup|]; exists r'; auto). congruence.
      - intros ->. rewrite Ei. simpl. congruence. }
    assert (Last : forall jx, walk None jx g = Some a -> exists kx j, jx = kx ++ [j] /\ length kx = length q).
    { intros jx H. destruct (walk_path jx a H) as (l' & S' & E). rewrite (spot_path _ _ _ HL _ _ _ S' S) in E. rewrite app_length in E. simpl in E.
      destruct (@exists_last _ jx) as (kx & j & ->); [intros ->; simpl in E; lia|]. exists kx, j. split; auto. rewrite app_length in E. simpl in E. lia. }
    destruct (lay_parent _ _ _ HL _ _ _ R3) as [[-> X]|(b & Sb & X)]; rewrite X.
    - destruct (Go None (or_introl (conj eq_refl eq_refl))) as (i & Pi & Hi). rewrite Pi. exists [i]. split; auto. intros jx. split.
      + intros H. destruct (Last jx H) as (kx & j & -> & Lk). destruct kx; [|discriminate]. rewrite walk_snoc in H. apply Hi in H. subst. auto.
      + intros ->. change [i] with ([] ++ [i]). rewrite walk_snoc. apply Hi. auto.
    - assert (Fo : found L q (Some b)) by (destruct Sb as (rb & Ib & <-); right; exists rb; auto).
      destruct (Go (Some b) Fo) as (i & Pi & Hi). rewrite Pi. destruct (IH q b Sb) as (ix & Eix & Hix); [lia|]. rewrite Eix. exists (ix ++ [i]). split; auto.
      pose proof (spot_nonempty _ _ _ HL _ _ Sb) as Nq.
      assert (Nix : forall kx : list nat, length kx = length q -> kx <> []) by (intros kx Hk ->; destruct q; [contradiction|discriminate]).
      assert (Lix : length ix = length q).
      { destruct (walk_path ix b (proj2 (Hix ix) eq_refl)) as (l' & S' & E). rewrite (spot_path _ _ _ HL _ _ _ S' Sb) in E. auto. }
      intros jx. split.
      + intros H. destruct (Last jx H) as (kx & j & -> & Lk). rewrite walk_snoc in H. destruct kx as [|k kx]; [exfalso; apply (Nix []); auto|].
        destruct (walk None (k :: kx) g) as [c|] eqn:Ek; [|discriminate].
        assert (c = b).
        { destruct (walk_path _ _ Ek) as (l' & (rc & Ic & <-) & E). assert (Fc : found L l' (Some (r_addr rc))) by (right; exists rc; auto).
          destruct (nth_error (store_children (Some (r_addr rc)) g) j) as [r'|] eqn:Ej; [|discriminate]. inversion H as [H']. apply nth_error_In in Ej.
          apply (store_children_In _ _ _ _ _ _ HL Fc) in Ej. assert (Sx : spot L (l' ++ [r_id r']) a) by (exists r'; auto).
          pose proof (spot_path _ _ _ HL _ _ _ Sx S) as Z. apply app_inj_tail in Z. destruct Z as [-> _]. apply (spot_addr _ _ _ HL q); auto. exists rc. auto. }
        subst c. apply Hix in Ek. subst. apply Hi in H. subst. auto.
      + intros ->. rewrite walk_snoc. destruct ix as [|k ix]; [exfalso; apply (Nix []); auto|]. rewrite (proj2 (Hix (k :: ix)) eq_refl). apply Hi. auto.
  Qed.

  Lemma lay_deep : forall l, In l cs -> length l <= length (rows g).
  Proof.
    intros l Hl.
    assert (Pre : forall k, 1 <= k <= length l -> In (firstn k l) cs).
    { intros k Hk. destruct (cs_above _ _ _ HL (firstn k l) (skipn k l)) as [Z|Z]; auto; [rewrite firstn_skipn; auto|].
      exfalso. apply (f_equal (@length id)) in Z. rewrite firstn_length in Z. simpl in Z. lia. }
    assert (Len : length (rows g) = length (map fst L)) by (rewrite <- (l_rows _ _ _ HL), !map_length; auto).
    rewrite Len, <- (seq_length (length l) 1), <- (map_length (fun k => firstn k l)). apply NoDup_incl_length.
    - assert (Inj : forall a n, a + n <= S (length l) -> 1 <= a -> NoDup (map (fun k => firstn k l) (seq a n))).
      { intros a n. revert a. induction n as [|n IHn]; intros a Ha H1; simpl; constructor; [|apply IHn; lia].
        intros Z. apply in_map_iff in Z. destruct Z as (k & Ek & Hk). apply in_seq in Hk. apply (f_equal (@length id)) in Ek. rewrite !firstn_length in Ek. lia. }
      apply Inj; lia.
    - intros x Hx. apply in_map_iff in Hx. destruct Hx as (k & <- & Hk). apply in_seq in Hk. apply (l_cs _ _ _ HL). apply Pre. lia.
  Qed.

  Lemma row_for_spot : forall ix r, row_for ix g = Some r -> walk None ix g = Some (r_addr r) /\ exists l, In (l, r) L /\ length l = length ix.
  Proof.
    intros ix r H. unfold row_for in H. destruct (walk None ix g) as [a|] eqn:E; [|discriminate]. destruct (walk_path ix a E) as (l & S & Ll).
    destruct (spot_row _ _ _ HL _ _ S) as (r' & R1 & R2 & R3 & _). assert (r' = r) by congruence. subst r'. split; [congruence|]. exists l. auto.
  Qed.

  Lemma walk_row_for : forall ix a, walk None ix g = Some a -> exists r, row_for ix g = Some r /\ r_addr r = a.
  Proof. intros ix a H. unfold row_for. rewrite H. destruct (walk_path ix a H) as (l & S & _). destruct (spot_row _ _ _ HL _ _ S) as (r & R1 & R2 & _). exists r. auto. Qed.

  Lemma places : forall r, In r (rows g) -> exists ix, indices (r_addr r) g = Some ix /\ forall jx, row_for jx g = Some r <-> jx = ix.
  Proof.
    intros r Hr. destruct (lay_row _ _ _ HL r Hr) as (l & I). assert (S : spot L l (r_addr r)) by (exists r; auto).
    destruct (indices_walk (length (rows g)) l (r_addr r) S) as (ix & E & H); [apply lay_deep; apply (spot_cs _ _ _ HL _ _ S)|]. exists ix. split; auto.
    intros jx. rewrite <- H. split.
    - intros X. apply row_for_spot in X. tauto.
    - intros X. unfold row_for. rewrite X. apply (lay_row_at_ok _ _ _ HL l). auto.
  Qed.

  (** *** The path of an expanded row *)
  Lemma emitted_snoc : forall ix i, emitted (ix ++ [i]) g =
    match emitted ix g with Ok l => match row_for (ix ++ [i]) g with Some r => Ok (l ++ [r_id r]) | None => Err ValueError end | e => e end.
  Proof.
    intros ix i. unfold emitted. rewrite app_length. simpl length. rewrite Nat.add_1_r, seq_S, fold_left_app. cbn [fold_left].
    set (f := fun jx (acc : res (list id)) j => match acc with Ok l => match row_for (firstn j jx) g with Some r => Ok (l ++ [r_id r]) | None => Err ValueError end | e => e end).
    assert (K : forall js acc, (forall j, In j js -> j <= length ix) -> fold_left (f (ix ++ [i])) js acc = fold_left (f ix) js acc).
    { induction js as [|j js IH]; intros acc H; simpl; auto. rewrite IH by (intros; apply H; right; auto). f_equal. unfold f.
      rewrite firstn_app. replace (j - length ix) with 0 by (specialize (H j (or_introl eq_refl)); lia). simpl. rewrite app_nil_r. auto. }
    change (f (ix ++ [i]) (fold_left (f (ix ++ [i])) (seq 1 (length ix)) (Ok [])) (1 + length ix) =
            match fold_left (f ix) (seq 1 (length ix)) (Ok []) with Ok l => match row_for (ix ++ [i]) g with Some r => Ok (l ++ [r_id r]) | None => Err ValueError end | e => e end).
    rewrite K by (intros j Hj; apply in_seq in Hj; lia). unfold f at 1.
    rewrite firstn_all2 by (rewrite app_length; simpl; lia). destruct (fold_left (f ix) (seq 1 (length ix)) (Ok [])); auto.
  Qed.

  Lemma emitted_path : forall ix l r, row_for ix g = Some r -> In (l, r) L -> emitted ix g = Ok l.
  Proof.
    intros ix. induction ix as [|i ix IH] using rev_ind; intros l r H I; [discriminate|]. rewrite emitted_snoc, H.
    destruct (row_for_spot _ _ H) as (W & l' & I' & Ll). destruct (lay_addr _ _ _ HL _ _ _ _ I' I eq_refl) as [-> _]. rewrite app_length in Ll. simpl in Ll.
    destruct (l_path _ _ _ HL _ _ I) as (q & -> & _). rewrite app_length in Ll. simpl in Ll. rewrite walk_snoc in W.
    destruct ix as [|j ix].
    - destruct q; [|simpl in Ll; lia]. unfold emitted. simpl. auto.
    - destruct (walk None (j :: ix) g) as [b|] eqn:Eb; [|discriminate]. destruct (walk_row_for _ _ Eb) as (rb & Rb & <-).
      destruct (row_for_spot _ _ Rb) as (_ & lb & Ib & _). assert (Fb : found L lb (Some (r_addr rb))) by (right; exists rb; auto).
      destruct (nth_error (store_children (Some (r_addr rb)) g) i) as [r'|] eqn:Ei; [|discriminate]. inversion W as [W']. apply nth_error_In in Ei.
      apply (store_children_In _ _ _ _ _ _ HL Fb) in Ei. destruct (lay_addr _ _ _ HL _ _ _ _ Ei I W') as [Z _]. apply app_inj_tail in Z. destruct Z as [-> _].
      rewrite (IH q rb Rb Ib). auto.
  Qed.

  Lemma drag_round : forall paths rs, map (fun ix => row_for ix g) paths = map Some rs -> drag_data paths g = Ok paths /\ ids_at paths g = Ok (map r_id rs).
  Proof.
    intros paths. induction paths as [|ix paths IH]; intros rs E; destruct rs as [|r rs]; try discriminate; cbn [drag_data ids_at map]; auto.
    simpl in E. inversion E as [[E1 E2]]. destruct (IH rs E2) as [A B]. destruct (row_for_spot ix r E1) as (W & l & I & _). rewrite W, E1, A, B.
    destruct (places r (lay_in _ _ _ HL _ _ I)) as (jx & J & U). rewrite J. rewrite (proj1 (U ix) E1). auto.
  Qed.

  Lemma destination_spot : forall ix pl r l, row_for ix g = Some r -> In (l, r) L ->
    destination (Some (ix, pl)) g = Ok (goes_to pl l).
  Proof.
    intros ix pl r l H I. cbn [destination]. rewrite H. destruct (l_path _ _ _ HL _ _ I) as (q & -> & _). unfold goes_to. rewrite last_last, removelast_last.
    assert (Go : match r_parent r with None => Ok None | Some b => match row_at b g with Some q0 => Ok (Some (r_id q0)) | None => Err ValueError end end =
                 Ok (match q with [] => None | _ => Some (last q "") end)).
    { destruct (lay_parent _ _ _ HL _ _ _ I) as [[-> X]|(b & Sb & X)]; rewrite X; auto.
      destruct (spot_row _ _ _ HL _ _ Sb) as (rb & R1 & R2 & R3 & R4). rewrite R1, R4. pose proof (spot_nonempty _ _ _ HL _ _ Sb). destruct q; [contradiction|auto]. }
    destruct pl; [destruct q; exact Go|destruct q; exact Go|reflexivity].
  Qed.

  Lemma dragged_rows : forall data, dragged data g = map r_addr (rows_for data g).
  Proof.
    intros data. induction data as [|ix data IH]; cbn [dragged rows_for flat_map]; auto. rewrite map_app. fold (rows_for data g). rewrite <- IH.
    destruct (row_for ix g) as [r|] eqn:E.
    - destruct (row_for_spot ix r E) as (W & _). rewrite W. auto.
    - destruct (walk None ix g) as [a|] eqn:W; auto. destruct (walk_row_for ix a W) as (r & X & _). congruence.
  Qed.

  Lemma rows_for_In : forall data r, In r (rows_for data g) -> In r (rows g).
  Proof.
    intros data r Hr. apply in_flat_map in Hr. destruct Hr as (ix & _ & Hr). destruct (row_for ix g) as [r'|] eqn:Z; [|destruct Hr].
    destruct Hr as [<-|[]]. destruct (row_for_spot ix r' Z) as (_ & l & I & _). apply (lay_in _ _ _ HL _ _ I).
  Qed.
End Places.

(** ** Rows keep their node *)
Section Since.
  Variable ord : nat -> list id -> list id.
  Variable pf : platform.
  Hypothesis HO : forall k l, Permutation (ord k l) l.
  Hypothesis AL : faithful pf.
  Hypothesis NR : never_reuses pf.
  Variable old : list row.
  Variable time : nat.

  Definition since (g : gtk) : Prop :=
    time <= clock g /\ forall r, In r (rows g) ->
      (exists r0, In r0 old /\ r_addr r = r_addr r0 /\ r_id r = r_id r0) \/ (exists k live, time <= k /\ r_addr r = address pf k live).

  Lemma expand_store : forall a all p, store (expand_row a all p) = store p.
  Proof. intros a all p. unfold expand_row. destruct (known a p && has_rows a (store p)); auto. Qed.
  Lemma toggled_store : forall a p, store (on_child_toggled a p) = store p.
  Proof. intros a p. unfold on_child_toggled. destruct (row_at a (store p)); auto. destruct (_ && _); auto. apply expand_store. Qed.

  Lemma signal_store : forall T x p g, on_signal pf T x (store p) = (g, Ok tt) -> store (fst (on_panel_signal pf T x p)) = g.
  Proof.
    intros T x p g E. destruct x as [n q|n q|n q|n k]; cbn [on_panel_signal].
    - rewrite E. cbn [fst]. destruct (snd (my_get_iter (removelast q) (store p))); auto. destruct (Nat.eqb _ _); auto. rewrite toggled_store. auto.
    - rewrite E. auto.
    - rewrite E. auto.
    - simpl in E. inversion E. destruct k as [|[|k]]; auto.
  Qed.

  Definition kept_ids (p : panel) (cs : list (list id)) : Prop := drawn (by_address pf) False p cs /\ since (store p).

  Lemma kept_step : forall T x p cs cs', kept_ids p cs -> hear cs x cs' -> names_live (T, x) ->
    exists p', on_panel_signal pf T x p = (p', Ok tt) /\ kept_ids p' cs' /\ seated (store p) (store p') [x].
  Proof.
    intros T x p cs cs' [D S] H Hn. destruct (panel_step pf False AL False (by_address pf) (address_rule pf NR) T x p cs cs' D H Hn (False_ind _)) as (p' & E & D' & Hd). exists p'. split; auto.
    destruct D as (L & HL & FC & _). destruct (signal_ok pf T x L (store p) cs cs' AL HL (fun z _ => fc_good _ _ _ FC z) H Hn) as (g' & L' & E1 & HL' & V1 & _ & V3).
    pose proof (signal_store T x p g' E1) as Es. rewrite E in Es. cbn [fst] in Es. rewrite Es.
    split; [|apply (seated_step pf T x L (store p) cs cs'); auto; intros z _; apply (fc_good _ _ _ FC z)].
    split; auto. rewrite Es. destruct S as [S1 S2]. split; [lia|].
    intros r Hr. destruct (lay_row _ _ _ HL' r Hr) as (l & I). destruct (V3 l r I) as [(r1 & I1 & A1 & A2)|(_ & live & A)].
    - destruct (S2 r1 (lay_in _ _ _ HL _ _ I1)) as [(r0 & I0 & B1 & B2)|(k & live & B1 & B2)].
      + left. exists r0. split; auto. split; congruence.
      + right. exists k, live. split; auto. congruence.
    - right. exists (clock (store p)), live. auto.
  Qed.
End Since.

Lemma places_layout : forall L g cs, layout L g cs ->
  (forall r, In r (rows g) -> exists ix, indices (r_addr r) g = Some ix /\ forall jx, row_for jx g = Some r <-> jx = ix) /\
  (forall ix r, row_for ix g = Some r -> In r (rows g) /\ forall l, at_path (rows g) r l -> emitted ix g = Ok l) /\
  (forall paths rs, map (fun ix => row_for ix g) paths = map Some rs -> drag_data paths g = Ok paths /\ ids_at paths g = Ok (map r_id rs)).
Proof.
  intros L g cs HL. split; [|split].
  - apply (places L g cs HL).
  - intros ix r E. destruct (row_for_spot L g cs HL ix r E) as (_ & l0 & I & _). split; [apply (lay_in _ _ _ HL _ _ I)|].
    intros l Hl. apply (layout_at _ _ _ HL) in Hl. apply (emitted_path L g cs HL ix l r); auto.
  - apply (drag_round L g cs HL).
Qed.

Lemma external_goes : forall d info ix pl l paths g src rs, destination (Some (ix, pl)) g = Ok (goes_to pl l) -> map (fun jx => row_for jx src) paths = map Some rs ->
  drop_external d info (Some (ix, pl)) paths g src =
    Ok (match goes_to pl l, find (fun z => Nat.eqb (fst z) info) (external d) with
        | Some dest, Some (_, (_, f)) => if String.eqb dest "" then [] else map (fun r => (f, r_id r, dest)) rs
        | _, _ => [] end).
Proof.
  intros d info ix pl l paths g src rs G Ep. unfold drop_external. rewrite G.
  destruct (goes_to pl l) as [dest|]; auto. unfold truthy. destruct (String.eqb dest ""); simpl; [destruct (find _ _) as [[? [? ?]]|]; auto|].
  destruct (find _ _) as [[? [? f]]|]; auto.
  assert (R : resolve paths src = Ok (map r_id rs)).
  { clear - Ep. revert rs Ep. induction paths as [|jx paths IH]; intros rs E; destruct rs as [|r rs]; try discriminate; auto. simpl in E. inversion E as [[E1 E2]].
    cbn [resolve map]. rewrite E1, (IH rs E2). auto. }
  rewrite R, map_map. auto.
Qed.

Section Drops.
  Variable ord : nat -> list id -> list id.
  Variable pf : platform.
  Hypothesis HO : forall k l, Permutation (ord k l) l.
  Hypothesis AL : faithful pf.
  Hypothesis NR : never_reuses pf.

  Definition still old time (t : mtree) (b : bank) (s : ft) (p : panel) := cheld (kept_ids pf old time) t b s p.

  Definition seat (p : panel) (l : list id) (a : nat) : Prop := exists r, at_path (rows (store p)) r l /\ r_addr r = a.

  Lemma move_ok : forall old time asked n dest t b s p start, still old time t b s p -> in_use ord pf start asked (t, b, s) p ->
    exists s' p', panel_call pf ord (VTree (MoveNode n dest)) (t, b, s) p = (after (MoveNode n dest) t, b, s', p', Ok tt) /\
      still old time (after (MoveNode n dest) t) b s' p' /\ in_use ord pf start asked (after (MoveNode n dest) t, b, s') p' /\
      view_call ord (VTree (MoveNode n dest)) (t, b, s) = (after (MoveNode n dest) t, b, s', Ok tt) /\
      forall l a, ~ In n l -> seat p l a -> seat p' l a.
  Proof.
    intros old time asked n dest t b s p start D U. assert (X : supported (t, b, s) (VTree (MoveNode n dest))) by (cbn; repeat split).
    destruct (cheld_call ord HO (on_panel_signal pf) (kept_ids pf old time) (fun p p' => seated (store p) (store p')) (fun p => seated_nil (store p))
      (fun p q r => seated_app (store p) (store q) (store r)) (fun T x p cs cs' a c d _ => kept_step pf AL NR old time T x p cs cs' a c d) _ t b s p D X)
      as (t' & b' & s' & p' & E & D' & E' & Se & _).
    pose proof E' as Z. cbn [view_call] in Z. destruct (feed ord b (events (MoveNode n dest) t) s) as [s1 r1]. inversion Z; subst t' b' s1 r1.
    exists s', p'. split; [exact E|]. split; auto. split; [eapply use_call; [exact U|exact X|discriminate|exact E]|]. split; auto.
    intros l a Nl (r & P & <-). apply Se; auto.
    destruct D as (l0 & v & cs & -> & C & _ & Hh & (L & HL & _) & _).
    destruct (current_call ord HO (VTree (MoveNode n dest)) t b v C X) as (v' & E1 & _). cbn [new_tree new_bank] in E1.
    rewrite pre_call, E1 in E'. inversion E'; subst. rewrite news_pre.
    assert (V : view_path v l).
    { destruct (current_heard _ _ _ C) as (cs2 & Hh2 & K). rewrite (hear_all_det _ _ _ _ Hh2 Hh) in K. apply K, (l_cs _ _ _ HL).
      apply (layout_at _ _ _ HL) in P. apply in_map_iff. exists (l, r). auto. }
    apply (elsewhere_current ord HO (MoveNode n dest) n t b v v' (Ok tt) C X eq_refl E1 l V Nl).
  Qed.

  Lemma moves_ok : forall old time start asked dest rs, (forall r, In r rs -> In r old) -> (forall r r', In r old -> In r' old -> r_addr r = r_addr r' -> r = r') ->
    (forall r, In r old -> exists k live, k < time /\ r_addr r = address pf k live) -> (forall r, In r old -> exists l, at_path old r l) ->
    forall before t b s p, still old time t b s p -> in_use ord pf start asked (t, b, s) p ->
    (forall r l, at_path old r l -> (exists n, In n l /\ In n before) \/ seat p l (r_addr r)) ->
    exists kept s' p', move_rows pf ord (map r_addr rs) dest (t, b, s) p = (moved kept dest t, b, s', p') /\
      moves_of old before rs kept /\ in_use ord pf start asked (moved kept dest t, b, s') p'.
  Proof.
    intros old time start asked dest rs Sub Inj Old Pa. induction rs as [|r rs IH]; intros before t b s p D U St; cbn [map move_rows].
    - exists [], s, p. split; [reflexivity|]. split; [constructor|auto].
    - destruct (row_at (r_addr r) (store p)) as [r'|] eqn:Er.
      + assert (Ei : r_id r' = r_id r).
        { destruct D as (l & v & cs & _ & _ & _ & _ & (_ & _ & S)). destruct (lay_row_at _ _ _ Er) as [Ir Ea].
          destruct (S r' Ir) as [(r0 & I0 & A1 & A2)|(k & live & A1 & A2)].
          - rewrite (Inj r r0); auto; try congruence; apply Sub; left; auto.
          - exfalso. destruct (Old r (Sub r (or_introl eq_refl))) as (k' & live' & B1 & B2). assert (k' = k) by (apply (NR k' live' k live); congruence). lia. }
        rewrite Ei. destruct (move_ok old time asked (r_id r) dest t b s p start D U) as (s1 & p1 & E1 & D1 & U1 & _ & St1). rewrite E1.
        destruct (IH (fun z Hz => Sub z (or_intror Hz)) (r_id r :: before) _ b s1 p1 D1 U1) as (kept & s2 & p2 & E2 & K & U2).
        { intros r2 l2 P2. destruct (In_dec_id (r_id r) l2) as [I2|I2]; [left; exists (r_id r); simpl; auto|].
          destruct (St r2 l2 P2) as [(n & N1 & N2)|Se]; [left; exists n; simpl; auto|right; apply St1; auto]. }
        rewrite E2. exists (r_id r :: kept), s2, p2. split; [reflexivity|]. split; [constructor; auto|exact U2].
      + destruct (IH (fun z Hz => Sub z (or_intror Hz)) before t b s p D U St) as (kept & s2 & p2 & E2 & K & U2). exists kept, s2, p2. split; auto. split; [|auto].
        destruct (Pa r (Sub r (or_introl eq_refl))) as (l & P). destruct (St r l P) as [(n & N1 & N2)|(r2 & P2 & A2)]; [apply (moves_leave _ _ _ _ _ l n); auto|].
        exfalso. assert (I2 : In r2 (rows (store p))) by (inversion P2; auto). unfold row_at in Er. apply (find_none _ _ Er) in I2. rewrite A2, Nat.eqb_refl in I2. discriminate.
  Qed.

  Lemma in_use_layout : forall start asked t b s p, in_use ord pf start asked (t, b, s) p ->
    exists L cs, layout L (store p) cs /\ fresh_caches pf L (store p).
  Proof.
    intros start asked t b s p H. apply (in_use_any ord pf HO AL NR) in H. destruct H as [(l & v & cs & _ & _ & _ & _ & (L & HL & FC & _)) _]. exists L, cs. auto.
  Qed.

  Lemma still_now : forall start asked t b s p, in_use ord pf start asked (t, b, s) p -> still (rows (store p)) (clock (store p)) t b s p.
  Proof.
    intros start asked t b s p H. apply (in_use_any ord pf HO AL NR) in H. destruct H as [(l & v & cs & E & C & Rd & Hh & D) _]. exists l, v, cs.
    split; auto. split; auto. split; auto. split; auto. split; auto. split; auto. intros r Hr. left. exists r. auto.
  Qed.

  (** *** Theorems *)
  Lemma use_drop : forall start asked t b s p info dest data, in_use ord pf start asked (t, b, s) p ->
    destination info (store p) = Ok dest ->
    exists kept s' p', drop_here pf ord info data (t, b, s) p = (moved kept dest t, b, s', p', Ok tt) /\
      in_use ord pf start asked (moved kept dest t, b, s') p' /\ moves_of (rows (store p)) [] (rows_for data (store p)) kept.
  Proof.
    intros start asked t b s p info dest data U Ed. destruct (in_use_layout _ _ _ _ _ _ U) as (L & cs & HL & FC). pose proof (still_now _ _ _ _ _ _ U) as D.
    unfold drop_here. rewrite Ed, (dragged_rows L (store p) cs HL data).
    assert (Inj : forall r r', In r (rows (store p)) -> In r' (rows (store p)) -> r_addr r = r_addr r' -> r = r').
    { intros r r' H1 H2 Ea. destruct (lay_row _ _ _ HL r H1) as (l1 & I1). destruct (lay_row _ _ _ HL r' H2) as (l2 & I2).
      destruct (lay_addr _ _ _ HL _ _ _ _ I1 I2 Ea). auto. }
    assert (Old : forall r, In r (rows (store p)) -> exists k live, k < clock (store p) /\ r_addr r = address pf k live).
    { intros r Hr. destruct (lay_row _ _ _ HL r Hr) as (l & I). apply (fc_rows _ _ _ FC l). auto. }
    destruct (moves_ok _ _ start asked dest (rows_for data (store p)) (rows_for_In L (store p) cs HL data) Inj Old) with (before := @nil id) (t := t) (b := b) (s := s) (p := p)
      as (kept & s2 & p2 & E2 & K & U2); auto.
    - intros r Hr. destruct (lay_row _ _ _ HL r Hr) as (l & I). exists l. apply (layout_at _ _ _ HL). auto.
    - intros r l P. right. exists r. auto.
    - exists kept, s2, p2. rewrite E2. auto.
  Qed.

  Lemma moves_all : forall rs ds before kept, (forall r l, In r ds -> at_path rs r l -> forall n, In n before -> ~ In n l) -> apart rs ds ->
    moves_of rs before ds kept -> kept = map r_id ds.
  Proof.
    intros rs ds before kept H A M. induction M as [before|before r rest kept M IH|before r rest kept l n P N1 N2 M IH]; auto.
    - cbn [map]. f_equal. destruct A as [A1 A2]. apply IH; auto. intros r' l' I' P' n [<-|I]; [apply (A1 r' l' I' P')|apply (H r' l' (or_intror I') P' n I)].
    - destruct (H r l (or_introl eq_refl) P n N2 N1).
  Qed.

  Lemma use_drop_all : forall start asked t b s p info dest data, in_use ord pf start asked (t, b, s) p ->
    destination info (store p) = Ok dest -> apart (rows (store p)) (rows_for data (store p)) ->
    exists s' p', drop_here pf ord info data (t, b, s) p = (moved (map r_id (rows_for data (store p))) dest t, b, s', p', Ok tt).
  Proof.
    intros start asked t b s p info dest data U Ed A. destruct (use_drop _ _ _ _ _ _ _ _ data U Ed) as (kept & s' & p' & E & _ & M).
    assert (K : kept = map r_id (rows_for data (store p))) by (apply (moves_all (rows (store p)) _ [] kept); auto). subst kept. exists s', p'. exact E.
  Qed.

  Lemma use_goes : forall start asked t b s p ix pl r l, in_use ord pf start asked (t, b, s) p ->
    row_for ix (store p) = Some r -> at_path (rows (store p)) r l -> destination (Some (ix, pl)) (store p) = Ok (goes_to pl l).
  Proof.
    intros start asked t b s p ix pl r l U E Hl. destruct (in_use_layout _ _ _ _ _ _ U) as (L & cs & HL & FC). apply (layout_at _ _ _ HL) in Hl.
    apply (destination_spot L (store p) cs HL ix pl r l E Hl).
  Qed.

  Lemma use_drop_one : forall start asked t b s p info dest ix r, in_use ord pf start asked (t, b, s) p ->
    destination info (store p) = Ok dest -> row_for ix (store p) = Some r ->
    exists p', drop_here pf ord info [ix] (t, b, s) p = (fst (view_call ord (VTree (MoveNode (r_id r) dest)) (t, b, s)), p', Ok tt).
  Proof.
    intros start asked t b s p info dest ix r U Ed Er. destruct (in_use_layout _ _ _ _ _ _ U) as (L & cs & HL & FC). pose proof (still_now _ _ _ _ _ _ U) as D.
    destruct (row_for_spot L (store p) cs HL ix r Er) as (W & l & I & _). unfold drop_here. rewrite Ed. cbn [dragged]. rewrite W. cbn [move_rows]. rewrite (lay_row_at_ok _ _ _ HL l r I).
    destruct (move_ok _ _ asked (r_id r) dest t b s p start D U) as (s1 & p1 & E1 & _ & _ & E2 & _). rewrite E1, E2. exists p1. auto.
  Qed.

  Lemma use_external : forall start asked t b s p d info ix pl r l paths src rs, in_use ord pf start asked (t, b, s) p ->
    row_for ix (store p) = Some r -> at_path (rows (store p)) r l -> map (fun jx => row_for jx src) paths = map Some rs ->
    drop_external d info (Some (ix, pl)) paths (store p) src =
      Ok (match goes_to pl l, find (fun z => Nat.eqb (fst z) info) (external d) with
          | Some dest, Some (_, (_, f)) => if String.eqb dest "" then [] else map (fun r => (f, r_id r, dest)) rs
          | _, _ => [] end).
  Proof.
    intros start asked t b s p d info ix pl r l paths src rs U Er Hl Ep. apply external_goes; auto. apply (use_goes _ _ _ _ _ _ _ _ _ _ U Er Hl).
  Qed.
End Drops.

(** ** Targets *)
Lemma free_number_seq : forall k i (l : list (nat * (id * nat))), map fst l = seq i k -> forall f, k <= f -> free_number f i l = i + k.
Proof.
  assert (G : forall k i j (l : list (nat * (id * nat))), map fst l = seq i (j + k) -> forall f, k <= f -> free_number f (i + j) l = i + j + k).
  { intros k. induction k as [|k IH]; intros i j l E f Hf.
    - destruct f as [|f]; cbn [free_number]; [lia|]. destruct (existsb (fun z => Nat.eqb (fst z) (i + j)) l) eqn:X; [|lia].
      exfalso. apply existsb_exists in X. destruct X as (z & I & Z). apply Nat.eqb_eq in Z. assert (J : In (fst z) (map fst l)) by (apply in_map; auto).
      rewrite E, in_seq in J. lia.
    - destruct f as [|f]; [lia|]. cbn [free_number].
      assert (X : existsb (fun z => Nat.eqb (fst z) (i + j)) l = true).
      { assert (J : In (i + j) (map fst l)) by (rewrite E; apply in_seq; lia). apply in_map_iff in J. destruct J as (z & Z & I). apply existsb_exists. exists z. split; auto. apply Nat.eqb_eq. auto. }
      rewrite X. replace (S (i + j)) with (i + S j) by lia. rewrite IH; try lia. rewrite E. f_equal. lia. }
  intros k i l E f Hf. pose proof (G k i 0 l E f Hf) as H. rewrite Nat.add_0_r in H. auto.
Qed.

Lemma sources_app : forall a b, sources (a ++ b) = sources a ++ sources b.
Proof. intros a b. induction a as [|[n|s f] a IH]; simpl; auto. rewrite IH. auto. Qed.

Lemma dnd_ok : forall cs, internal (dnd_after cs) = last_name cs /\ map fst (external (dnd_after cs)) = seq 1 (length (sources cs)) /\
  map snd (external (dnd_after cs)) = sources cs.
Proof.
  intros cs. induction cs as [|c cs IH] using rev_ind; [auto|]. unfold dnd_after, last_name in *. rewrite !fold_left_app. cbn [fold_left]. rewrite sources_app, app_length.
  destruct IH as (A & B & C). set (d := fold_left dnd_step cs new_dnd) in *. destruct c as [n|s f]; cbn [dnd_step sources].
  - rewrite app_nil_r. simpl length. rewrite Nat.add_0_r. unfold set_dnd_name. destruct (init_dnd _); cbn [fst internal external]; auto.
  - unfold set_dnd_external. cbn [fst internal external]. rewrite !map_app, B, C. split; auto. split; auto. simpl length. rewrite Nat.add_1_r, seq_S. f_equal. cbn [map fst].
    f_equal. apply free_number_seq; auto. rewrite <- C, map_length. auto.
Qed.

Lemma dnd_find : forall cs i, find (fun z => Nat.eqb (fst z) (S i)) (external (dnd_after cs)) = option_map (fun x => (S i, x)) (nth_error (sources cs) i).
Proof.
  intros cs i. destruct (dnd_ok cs) as (_ & B & C). rewrite <- C. clear C.
  assert (G : forall (l : list (nat * (id * nat))) k m j, map fst l = seq k m -> find (fun z => Nat.eqb (fst z) (k + j)) l = option_map (fun x => (k + j, x)) (nth_error (map snd l) j)).
  { induction l as [|[a x] l IH]; intros k m j E; [destruct j; auto|]. destruct m as [|m]; [discriminate|]. simpl in E. inversion E as [[E1 E2]]. subst a. cbn [find fst].
    destruct j as [|j].
    - rewrite Nat.add_0_r, Nat.eqb_refl. auto.
    - destruct (Nat.eqb k (k + S j)) eqn:Q; [apply Nat.eqb_eq in Q; lia|]. cbn [map nth_error snd]. replace (k + S j) with (S k + j) by lia. rewrite (IH (S k) m j); auto. }
  exact (G (external (dnd_after cs)) 1 (length (sources cs)) i B).
Qed.

Lemma dnd_targets : forall cs, init_dnd (dnd_after cs) =
  if String.eqb (last_name cs) "" then Err PyException else Ok ((last_name cs, 0) :: combine (map fst (sources cs)) (seq 1 (length (sources cs)))).
Proof.
  intros cs. destruct (dnd_ok cs) as (A & B & C). unfold init_dnd, targets. rewrite A, <- B, <- C. destruct (String.eqb _ _); auto. f_equal. f_equal.
  generalize (external (dnd_after cs)). intros l. induction l as [|[i [n f]] l IH]; simpl; auto. rewrite IH. auto.
Qed.

(** *** Paths that lead to no row *)
Lemma emitted_kept : forall ix g ns acc, acc = Err ValueError \/ (exists l, acc = Ok l) ->
  let r := fold_left (fun acc i =>
    match acc with
    | Ok l => match row_for (firstn i ix) g with Some r => Ok (l ++ [r_id r]) | None => Err ValueError end
    | e => e
    end) ns acc in r = Err ValueError \/ (exists l, acc = Ok l /\ exists l', r = Ok l').
Proof.
  intros ix g ns. induction ns as [|i ns IH]; intros acc [->|(l & ->)]; cbn [fold_left]; eauto.
  - destruct (row_for (firstn i ix) g) as [r|].
    + destruct (IH (Ok (l ++ [r_id r]))) as [H|(l0 & _ & H)]; eauto.
    + destruct (IH (Err ValueError)) as [H|(l0 & H & _)]; eauto. discriminate.
Qed.
Lemma no_row : forall g ix, ix <> [] -> row_for ix g = None -> emitted ix g = Err ValueError.
Proof.
  intros g ix Ne H. unfold emitted. destruct ix as [|i ix]; [congruence|]. cbn [length]. rewrite seq_S, fold_left_app. cbn [fold_left].
  change (1 + length ix) with (length (i :: ix)). rewrite firstn_all, H.
  destruct (emitted_kept (i :: ix) g (seq 1 (length ix)) (Ok [])) as [E|(l & _ & l' & E)]; eauto; rewrite E; auto.
Qed.
Lemma no_ids : forall g paths ix, In ix paths -> row_for ix g = None -> ids_at paths g = Err ValueError.
Proof.
  intros g paths. induction paths as [|jx paths IH]; intros ix Hi H; [destruct Hi|]. cbn [ids_at].
  destruct (row_for jx g) as [r|] eqn:E; auto. destruct Hi as [->|Hi]; [congruence|]. rewrite (IH ix Hi H). auto.
Qed.
Lemma no_drag : forall g paths ix, In ix paths -> walk None ix g = None -> drag_data paths g = Err ValueError.
Proof.
  intros g paths. induction paths as [|jx paths IH]; intros ix Hi H; [destruct Hi|]. cbn [drag_data].
  destruct (walk None jx g) as [a|] eqn:E; auto. destruct Hi as [->|Hi]; [congruence|]. rewrite (IH ix Hi H).
  destruct (indices a g); auto.
Qed.
Lemma walk_member : forall g ix at_row a, walk at_row ix g = Some a -> ix <> [] -> exists r, In r (rows g) /\ r_addr r = a.
Proof.
  intros g. induction ix as [|i ix IH]; intros at_row a H Ne; [congruence|]. cbn [walk] in H.
  destruct (nth_error (store_children at_row g) i) as [r|] eqn:E; [|discriminate]. destruct ix as [|j ix].
  - simpl in H. inv H. exists r. split; auto. apply nth_error_In in E. unfold store_children in E. apply filter_In in E. apply E.
  - eapply IH; eauto. discriminate.
Qed.
Lemma missing_rows : forall g paths ix, In ix paths -> row_for ix g = None ->
  ids_at paths g = Err ValueError /\ drag_data paths g = Err ValueError /\ (ix <> [] -> emitted ix g = Err ValueError).
Proof.
  intros g paths ix Hi H. split; [eapply no_ids; eauto|]. split; [|intros; apply no_row; auto]. eapply no_drag; eauto.
  destruct (walk None ix g) as [a|] eqn:E; auto. exfalso. unfold row_for in H. rewrite E in H. destruct ix as [|i ix]; [discriminate|].
  destruct (walk_member g (i :: ix) None a E) as (r & Hr & Ha); [discriminate|]. unfold row_at in H. eapply find_none in H; eauto.
  subst a. rewrite Nat.eqb_refl in H. discriminate.
Qed.
