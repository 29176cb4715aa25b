(** Views with filters that raise: when none of them does, everything is as before. *)
From Verif Require Import Base BaseFacts MainTree Filters FTree FRaise SpecView SpecViewing FtBase.
Open Scope f_scope.

Lemma bind_ext : forall A B (m m' : FM A) (k k' : A -> FM B) s, m s = m' s -> (forall a z, k a z = k' a z) -> fbind m k s = fbind m' k' s.
Proof. intros A B m m' k k' s E H. unfold fbind. rewrite E. destruct (m' s) as [z [a|e|]]; auto. Qed.
Lemma for_ext : forall X (l : list X) (k k' : X -> FM unit), (forall x z, k x z = k' x z) -> forall s, ffor l k s = ffor l k' s.
Proof. intros X l k k' H. induction l as [|x l IH]; intros s; auto. cbn [ffor]. apply bind_ext; auto. Qed.
Lemma set_ext : forall ord l (k k' : id -> FM unit), (forall x z, k x z = k' x z) -> forall s, iterate_set ord l k s = iterate_set ord l k' s.
Proof. intros ord l k k' H s. unfold iterate_set. apply for_ext. auto. Qed.
Lemma bind_get : forall B (k : ft -> FM B) s, fbind fget k s = k s s.
Proof. reflexivity. Qed.

Section Same.
  Variable ord : nat -> list id -> list id.
  Variable T : mtree.
  Variable F : id -> res bool.
  Variable D : id -> bool.
  Hypothesis HF : forall x, F x = Ok (D x).

  Lemma chosen_filter : forall test d l, (forall x, test x = Ok (d x)) -> chosen test l = Ok (filter d l).
  Proof. intros test d l H. induction l as [|x l IH]; cbn [chosen filter]; auto. rewrite H, IH. auto. Qed.

  Lemma bind_parents : forall B n (k : list id -> FM B) s, fbind (r_parents T F n) k s = k (node_parents_of T D n s) s.
  Proof.
    intros B n k s. unfold fbind, r_parents, node_parents_of. destruct (flat s); auto.
    rewrite (chosen_filter _ (fun p => is_displayed s p && D p)) by (intros x; destruct (is_displayed s x); cbn [andb]; auto).
    destruct (filter (fun p => is_displayed s p && D p) (get_parents T n)); auto.
  Qed.
  Lemma bind_children : forall B n (k : list id -> FM B) s, fbind (r_children T F n) k s = k (node_children_of T D n s) s.
  Proof.
    intros B n k s. unfold fbind, r_children, node_children_of. destruct (flat s); auto. rewrite (chosen_filter _ D); auto.
  Qed.

  Section Rec.
    Variable rec rec' : id -> direction -> FM unit.
    Hypothesis HR : forall n d s, rec n d s = rec' n d s.

    Ltac ex := first [reflexivity | apply HR
      | apply bind_ext; [|intros] | apply for_ext; intros | apply set_ext; intros
      | match goal with |- (if ?b then _ else _) _ = _ => destruct b end | progress cbv zeta ].

    Lemma shown_same : forall n dir added s, r_shown ord T F rec n dir added s = update_shown ord T D rec' n dir added s.
    Proof.
      intros n dir added s. unfold r_shown, update_shown, r_place. apply bind_ext; auto. intros e z. rewrite bind_parents, bind_get.
      apply bind_ext.
      { repeat ex. }
      intros ? z1. apply bind_ext; auto. intros e1 z2. rewrite bind_parents, !bind_get. cbv zeta.
      apply bind_ext; auto. intros ? z3. apply bind_ext; [repeat ex|]. intros ? z4. apply bind_ext.
      { apply set_ext. intros p z5. rewrite !bind_get. repeat ex. }
      intros ? z5. apply bind_ext; [repeat ex|]. intros ? z6. apply bind_ext; auto. intros ? z7. apply bind_ext; auto. intros e3 z8.
      rewrite bind_children, bind_get. repeat ex.
    Qed.
    Lemma hidden_same : forall n s, update_hidden T rec n s = update_hidden T rec' n s.
    Proof. intros n s. unfold update_hidden. repeat ex. Qed.
    Lemma body_same : forall n dir s, r_body ord T F rec n dir s = update_body ord T D rec' n dir s.
    Proof.
      intros n dir s. unfold r_body, update_body. rewrite !bind_get. destruct (String.eqb n (froot s)); auto.
      unfold fbind at 1. unfold evaluate. rewrite HF. cbv zeta. destruct (is_displayed s n), (D n).
      - apply shown_same.
      - apply hidden_same.
      - apply bind_ext; auto. intros. apply shown_same.
      - destruct (has_node T n); auto. apply for_ext. auto.
    Qed.
  End Rec.

  Lemma update_same : forall fuel n dir s, r_update ord T F fuel n dir s = update_node ord T D fuel n dir s.
  Proof. induction fuel as [|f IH]; intros n dir s; auto. cbn [r_update update_node]. apply body_same. auto. Qed.

  Lemma step_same : forall x, r_step ord T F x = refilter_step ord T D x.
  Proof. intros [q s]. unfold r_step, refilter_step, update. destruct q as [|n rest]; auto. rewrite update_same. auto. Qed.
  Lemma loop_ext : forall S R (f g : S -> ctl S R), (forall x, f x = g x) -> forall k x, loop k f x = loop k g x.
  Proof. intros S R f g H. induction k as [|k IH]; intros x; cbn [loop]; auto. rewrite IH. destruct (loop k g x); auto. Qed.
  Lemma rebuild_same : forall s, r_rebuild ord T F s = rebuild ord T D s.
  Proof.
    intros s. unfold r_rebuild, rebuild. apply bind_ext; auto. intros z z1. apply bind_ext; auto. intros e z2. apply bind_ext; auto. intros ? z3.
    apply bind_ext; auto. intros ? z4. rewrite (loop_ext _ _ _ _ step_same). auto.
  Qed.
End Same.

Section Calls.
  Variable ord : nat -> list id -> list id.
  Variable b : bank.
  Variable bad : trouble.

  Lemma asked_same : forall t names n, (forall name, In name names -> bad name t n = None) -> asked b bad t names n = Ok (passes b t names n).
  Proof.
    intros t names n. induction names as [|m l IH]; intros H; cbn [asked passes]; auto. destruct (get_filter b m); auto.
    rewrite (H m) by (left; auto). rewrite IH by (intros k Hk; apply H; right; auto). destruct (filt_displayed t f n); auto.
  Qed.
  Lemma evaluated_same : forall t names, (forall name n, In name names -> has_node t n = true -> bad name t n = None) ->
    forall n, evaluated b bad t names n = Ok (should_display b t names n).
  Proof.
    intros t names H n. unfold evaluated, should_display. destruct (has_node t n) eqn:E; rewrite ?andb_false_r; auto.
    destruct (truthy n && true); auto. apply asked_same. auto.
  Qed.

  Lemma modify_same : forall t n s, (forall name x, In name (filters s) -> has_node t x = true -> bad name t x = None) ->
    r_modify ord b bad t n s = external_modify ord b t n s.
  Proof. intros t n s H. unfold r_modify, external_modify, update. apply update_same. intros x. apply evaluated_same. auto. Qed.

  Lemma refilter_same : forall t s, (forall name x, In name (filters s) -> has_node t x = true -> bad name t x = None) ->
    r_refilter ord b bad t s = refilter ord b t s.
  Proof. intros t s H. unfold r_refilter, refilter. apply rebuild_same. intros x. apply evaluated_same. auto. Qed.
End Calls.

(** A run that raises nothing. *)
Definition follows {A} (m m' : FM A) : Prop := forall s s' a, m s = (s', Ok a) -> m' s = (s', Ok a).
Lemma follows_refl : forall A (m : FM A), follows m m.
Proof. intros A m s s' a H. auto. Qed.
Lemma follows_bind : forall A B (m m' : FM A) (k k' : A -> FM B), follows m m' -> (forall a, follows (k a) (k' a)) -> follows (fbind m k) (fbind m' k').
Proof.
  intros A B m m' k k' H1 H2 s s' b. unfold fbind. destruct (m s) as [z [a|e|]] eqn:E; try discriminate. rewrite (H1 _ _ _ E). apply H2.
Qed.
Lemma follows_for : forall X (l : list X) (k k' : X -> FM unit), (forall x, follows (k x) (k' x)) -> follows (ffor l k) (ffor l k').
Proof. intros X l k k' H. induction l as [|x l IH]; cbn [ffor]; [apply follows_refl|apply follows_bind; auto]. Qed.
Lemma follows_set : forall ord l (k k' : id -> FM unit), (forall x, follows (k x) (k' x)) -> follows (iterate_set ord l k) (iterate_set ord l k').
Proof. intros ord l k k' H s s' a. unfold iterate_set. apply (follows_for _ _ k k' H). Qed.

Section Silent.
  Variable ord : nat -> list id -> list id.
  Variable T : mtree.
  Variable F : id -> res bool.
  Variable D : id -> bool.
  Hypothesis HF : forall x v, F x = Ok v -> D x = v.

  Lemma chosen_silent : forall test d l k, (forall x v, test x = Ok v -> d x = v) -> chosen test l = Ok k -> k = filter d l.
  Proof.
    intros test d l. induction l as [|x l IH]; intros k H; cbn [chosen filter]; [intros E; inv E; auto|].
    destruct (test x) as [v|e|] eqn:E; try discriminate. destruct (chosen test l) as [k'|e|]; try discriminate. intros E'. inv E'.
    rewrite (H x v E), (IH k' H); auto.
  Qed.
  Lemma parents_silent : forall n s s' l, r_parents T F n s = (s', Ok l) -> s' = s /\ l = node_parents_of T D n s.
  Proof.
    intros n s s' l. unfold r_parents, node_parents_of. destruct (flat s); [intros H; inv H; auto|].
    destruct (chosen _ _) as [k|e|] eqn:E; try (destruct k; discriminate); try discriminate.
    apply (chosen_silent _ (fun p => is_displayed s p && D p)) in E.
    - rewrite <- E. destruct k; intros H; inv H; auto.
    - intros x v. destruct (is_displayed s x); cbn [andb]; [apply HF|intros H; inv H; auto].
  Qed.
  Lemma follows_parents : forall B n (k : list id -> FM B) (k' : ft -> FM B), (forall s s' b, k (node_parents_of T D n s) s = (s', Ok b) -> k' s s = (s', Ok b)) ->
    follows (fbind (r_parents T F n) k) (fbind fget k').
  Proof.
    intros B n k k' H s s' b. rewrite bind_get. unfold fbind at 1. destruct (r_parents T F n s) as [z [l|e|]] eqn:E; try discriminate.
    apply parents_silent in E. destruct E as [-> ->]. apply H.
  Qed.
  Lemma children_silent : forall n s s' l, r_children T F n s = (s', Ok l) -> s' = s /\ l = node_children_of T D n s.
  Proof.
    intros n s s' l. unfold r_children, node_children_of. destruct (flat s); [intros H; inv H; auto|].
    destruct (chosen F _) as [k|e|] eqn:E; try discriminate. intros H. inv H. split; auto. eapply chosen_silent; eauto.
  Qed.

  Section Rec.
    Variable rec rec' : id -> direction -> FM unit.
    Hypothesis HR : forall n d, follows (rec n d) (rec' n d).

    Ltac fo := first [apply follows_refl | apply HR
      | apply follows_bind; [|intros] | apply follows_for; intros | apply follows_set; intros
      | match goal with |- follows (if ?b then _ else _) _ => destruct b end | progress cbv zeta ].

    Lemma place_silent : forall n dir added, follows (r_place ord T F rec n dir added)
      (e1 <- fnode_at n ;; s1 <- fget ;;
       let cur := fpar e1 in
       let new := node_parents_of T D n s1 in
       upd_f n (fun e => mkF (filter (is_displayed s1) new) (fchi e)) ;;
       let remove_from := set_diff cur new in
       let add_to := set_diff new cur in
       let stay := set_diff new add_to in
       let dir := if (match dir with Down => true | _ => false end) && mem (froot s1) add_to then Both else dir in
       iterate_set ord remove_from (fun p => send_remove_tree n p ;; children_remove p n ;; if goes_up dir then rec' p Up else fret tt) ;;
       iterate_set ord add_to (fun p =>
         s2 <- fget ;;
         if is_displayed s2 p then
           upd_f p (fun e => mkF (fpar e) (fchi e ++ [n])) ;; send_add_tree n p ;; if goes_up dir then rec' p Up else fret tt
         else fraise PyException) ;;
       (if goes_up dir then iterate_set ord stay (fun p => rec' p Up) else fret tt) ;;
       (if added then fret tt else paths <- paths_of n ;; ffor paths (fun p => callback_modified n p)) ;;
       e3 <- fnode_at n ;; s3 <- fget ;;
       (if goes_down dir then ffor (node_children_of T D n s3) (fun c => e4 <- fnode_at n ;; if mem c (fchi e4) then fret tt else rec' c Down) else fret tt)).
    Proof.
      intros n dir added. unfold r_place. apply follows_bind; [apply follows_refl|]. intros e1. apply follows_parents. intros s s' b. rewrite bind_get. cbv zeta.
      revert s' b. set (nw := node_parents_of T D n s). apply (follows_bind _ _ _ _ _ _ (follows_refl _ _)). intros ?.
      apply follows_bind; [repeat fo|]. intros ?. apply follows_bind; [repeat fo|]. intros ?. apply follows_bind; [repeat fo|]. intros ?.
      apply follows_bind; [repeat fo|]. intros ?. apply follows_bind; [repeat fo|]. intros e3.
      intros z z' u. rewrite bind_get. unfold fbind at 1. destruct (r_children T F n z) as [z1 [l|e|]] eqn:E; try discriminate.
      apply children_silent in E. destruct E as [-> ->]. revert u. revert z'. 
      match goal with |- forall z' u, ?m z = _ -> ?m' z = _ => enough (W : follows m m') by (intros z' u; apply W) end. repeat fo.
    Qed.
    Lemma shown_silent : forall n dir added, follows (r_shown ord T F rec n dir added) (update_shown ord T D rec' n dir added).
    Proof.
      intros n dir added. unfold r_shown, update_shown. apply follows_bind; [apply follows_refl|]. intros e. apply follows_parents. intros s s' b. cbv zeta.
      revert s' b. match goal with |- forall s' b, ?m s = _ -> ?m' s = _ => enough (W : follows m m') by (intros z' u; apply W) end.
      apply follows_bind; [repeat fo|]. intros ?. apply place_silent.
    Qed.
    Lemma hidden_silent : forall n, follows (update_hidden T rec n) (update_hidden T rec' n).
    Proof. intros n. unfold update_hidden. repeat fo. Qed.
    Lemma body_silent : forall n dir, follows (r_body ord T F rec n dir) (update_body ord T D rec' n dir).
    Proof.
      intros n dir s s' a. unfold r_body, update_body. rewrite !bind_get. destruct (String.eqb n (froot s)); auto.
      unfold fbind at 1. unfold evaluate. destruct (F n) as [v|e|] eqn:E; try discriminate. rewrite (HF n v E). cbv zeta. destruct (is_displayed s n), v.
      - apply shown_silent.
      - apply hidden_silent.
      - apply follows_bind; [apply follows_refl|]. intros. apply shown_silent.
      - destruct (has_node T n); auto. apply follows_for. auto.
    Qed.
  End Rec.

  Lemma update_silent : forall fuel n dir, follows (r_update ord T F fuel n dir) (update_node ord T D fuel n dir).
  Proof. induction fuel as [|f IH]; intros n dir; [apply follows_refl|]. cbn [r_update update_node]. apply body_silent. auto. Qed.

  Lemma step_silent : forall x, match r_step ord T F x with
    | Go y => refilter_step ord T D x = Go y
    | Stop (s, Ok u) => refilter_step ord T D x = Stop (s, Ok u)
    | _ => True
    end.
  Proof.
    intros [q s]. unfold r_step, refilter_step, update. destruct q as [|n rest]; auto.
    destruct (r_update ord T F (update_budget T s) n Both s) as [s1 [[]|e|]] eqn:E; auto. rewrite (update_silent _ _ _ _ _ _ E).
    destruct (dget n (nodes T)); auto. destruct (String.eqb n main_root); auto.
  Qed.
  Lemma loop_silent : forall k x, match loop k (r_step ord T F) x with
    | Go y => loop k (refilter_step ord T D) x = Go y
    | Stop (s, Ok u) => loop k (refilter_step ord T D) x = Stop (s, Ok u)
    | _ => True
    end.
  Proof.
    induction k as [|k IH]; intros x; cbn [loop]; [apply step_silent|]. specialize (IH x) as I1.
    destruct (loop k (r_step ord T F) x) as [y|[s [u|e|]]]; [rewrite I1; apply IH|rewrite I1; auto|auto|auto].
  Qed.
  Lemma rebuild_silent : follows (r_rebuild ord T F) (rebuild ord T D).
  Proof.
    unfold r_rebuild, rebuild. apply follows_bind; [apply follows_refl|]. intros z. apply follows_bind; [apply follows_refl|]. intros e.
    apply follows_bind; [apply follows_refl|]. intros ?. apply follows_bind; [apply follows_refl|]. intros u1 s s' u2. 
    pose proof (loop_silent (walk_budget (length (nodes T))) (root_children T, s)) as W.
    destruct (loop _ (r_step ord T F) _) as [[q y]|[y [[]|x|]]]; try discriminate. rewrite W. auto.
  Qed.
End Silent.
