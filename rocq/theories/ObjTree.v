(** With callbacks that only look, and objects that are used while they are in the tree or
    before they are added, the model Objects does what MainTree does. *)
From Verif Require Import Base BaseFacts MainTree Spec MainOps MainEvents MainThm MainLaws Objects SpecObjects ObjFacts ObjTail.

(** *** The tree of a world *)
Record sinv (w : world) : Prop := {
  v_keys : NoDup (dkeys (names w));
  v_root : exists o, nth_error (heap w) 0 = Some o /\ o_id o = main_root /\ o_pen o = true /\ o_cen o = true /\ o_tree o = true;
  v_name : forall x a, dget x (names w) = Some a -> a <> 0 /\ exists o, nth_error (heap w) a = Some o /\ o_id o = x /\ o_tree o = true;
  v_new : forall a o, nth_error (heap w) a = Some o -> o_tree o = false -> app_node (o_id o) (node_of o)
}.

Lemma dget_map : forall A B (f : A -> B) k (d : dict A), dget k (map (fun z => (fst z, f (snd z))) d) = option_map f (dget k d).
Proof. intros A B f k d. induction d as [|[k' v] d IH]; simpl; auto. destruct (String.eqb k k'); auto. Qed.
Lemma dkeys_map : forall A B (f : A -> B) (d : dict A), dkeys (map (fun z => (fst z, f (snd z))) d) = dkeys d.
Proof. intros A B f d. unfold dkeys. rewrite map_map. reflexivity. Qed.
Lemma dset_map : forall A B (f : A -> B) k v (d : dict A), map (fun z => (fst z, f (snd z))) (dset k v d) = dset k (f v) (map (fun z => (fst z, f (snd z))) d).
Proof. intros A B f k v d. induction d as [|[k' v'] d IH]; simpl; auto. destruct (String.eqb k k'); simpl; f_equal; auto. Qed.
Lemma ddel_map : forall A B (f : A -> B) k (d : dict A), map (fun z => (fst z, f (snd z))) (ddel k d) = ddel k (map (fun z => (fst z, f (snd z))) d).
Proof. intros A B f k d. induction d as [|[k' v'] d IH]; simpl; auto. destruct (String.eqb k k'); simpl; f_equal; auto. Qed.
Lemma dset_self : forall A k (v : A) d, dget k d = Some v -> dset k v d = d.
Proof.
  intros A k v d. induction d as [|[k' v'] d IH]; simpl; [discriminate|]. deq k k'; intros G; [inv G; auto|]. f_equal. auto.
Qed.

Lemma tree_get : forall w x, dget x (nodes (tree_of w)) = option_map (node_at_addr w) (dget x (names w)).
Proof. intros w x. apply dget_map. Qed.
Lemma tree_named : forall w x, has_node (tree_of w) x = named w x.
Proof. intros w x. unfold has_node, named, dmem. rewrite tree_get. destruct (dget x (names w)); auto. Qed.
Lemma tree_opt : forall w p, opt_in (tree_of w) p = onamed w p.
Proof. intros w [x|]; auto. apply tree_named. Qed.
Lemma tree_length : forall w, length (nodes (tree_of w)) = length (names w).
Proof. intros w. apply map_length. Qed.

Lemma inj : forall w x y a, sinv w -> dget x (names w) = Some a -> dget y (names w) = Some a -> x = y.
Proof.
  intros w x y a V X Y. destruct (v_name w V x a X) as (_ & o & O1 & O2 & _). destruct (v_name w V y a Y) as (_ & o' & O1' & O2' & _). congruence.
Qed.
Lemma at_name_addr : forall w x a, sinv w -> dget x (names w) = Some a -> exists o, nth_error (heap w) a = Some o /\ o_id o = x /\ o_tree o = true /\ node_at_addr w a = node_of o.
Proof. intros w x a V E. destruct (v_name w V x a E) as (_ & o & O1 & O2 & O3). exists o. unfold node_at_addr. rewrite O1. auto. Qed.

Definition gentle (f : obj -> obj) : Prop := forall o, o_id (f o) = o_id o /\ o_tree (f o) = o_tree o.

Lemma map_upd : forall w x a f f' (d : dict nat), NoDup (dkeys d) -> (forall y b, dget y d = Some b -> b = a -> y = x) ->
  dget x d = Some a -> (exists o, nth_error (heap w) a = Some o /\ node_of (f o) = f' (node_of o)) ->
  map (fun z => (fst z, node_at_addr (put a f w) (snd z))) d = dset x (f' (node_at_addr w a)) (map (fun z => (fst z, node_at_addr w (snd z))) d).
Proof.
  intros w x a f f' d. induction d as [|[y b] d IH]; simpl; intros N J G (o & O1 & O2); [discriminate|]. inv N.
  assert (PA : forall b, b <> a -> node_at_addr (put a f w) b = node_at_addr w b).
  { intros b' NE. unfold node_at_addr. rewrite put_at. apply Nat.eqb_neq in NE. rewrite NE. auto. }
  destruct (String.eqb x y) eqn:E; [apply eqb_eq in E; subst y|apply eqb_neq in E].
  - inv G. unfold node_at_addr at 1. rewrite put_at, Nat.eqb_refl, O1. simpl. unfold node_at_addr at 2. rewrite O1. rewrite O2. f_equal.
    apply map_ext_in. intros [z b] I. simpl. f_equal. apply PA. intros ->.
    assert (Z : z = x). { apply (J z a); auto. destruct (String.eqb z x) eqn:EZ; [reflexivity|]. apply In_pair_dget; auto. }
    subst z. apply H1. apply in_map_iff. exists (x, a). auto.
  - f_equal.
    + f_equal. apply PA. intros ->. apply E. symmetry. apply (J y a); auto. rewrite eqb_refl. auto.
    + apply IH; auto; [|eauto]. intros z b' G1 G2. apply (J z b'); auto. destruct (String.eqb z y) eqn:EZ; [|auto]. exfalso. apply eqb_eq in EZ. subst z. apply H1. eapply dget_Some_In. eauto.
Qed.

Lemma tree_put : forall w x a f f', sinv w -> dget x (names w) = Some a -> (forall o, o_tree o = true -> node_of (f o) = f' (node_of o)) ->
  tree_of (put a f w) = upd_node x f' (tree_of w).
Proof.
  intros w x a f f' V E F. destruct (at_name_addr w x a V E) as (o & O1 & O2 & O3 & O4). destruct (v_name w V x a E) as (NZ & _).
  unfold upd_node. rewrite tree_get, E. simpl. unfold tree_of at 1, set_nodes. simpl. f_equal.
  - apply map_upd; auto; [apply V|intros y b E1 ->; apply (inj w y x a); auto|]. exists o. auto.
  - unfold top. rewrite put_at. destruct a; [congruence|]. auto.
Qed.
Lemma tree_top : forall w g, sinv w -> tree_of (put 0 (fun o => w_chi (g (o_chi o)) o) w) = set_rootc (g (top w)) (tree_of w).
Proof.
  intros w g V. unfold tree_of, set_rootc. simpl. f_equal.
  - apply map_ext_in. intros [x a] I. simpl. f_equal. unfold node_at_addr. rewrite put_at. destruct (Nat.eqb a 0) eqn:Z; auto. apply Nat.eqb_eq in Z. subst a.
    apply In_pair_dget in I; [|apply V]. destruct (v_name w V x 0 I) as (NZ & _). congruence.
  - destruct (v_root w V) as (o & O & _). unfold top. rewrite put_at, O. simpl. auto.
Qed.

Lemma sinv_put : forall w a f, sinv w -> gentle f -> (forall o, nth_error (heap w) a = Some o -> o_tree o = false -> app_node (o_id o) (node_of (f o))) ->
  (a = 0 -> forall o, o_pen (f o) = o_pen o /\ o_cen (f o) = o_cen o) -> sinv (put a f w).
Proof.
  intros w a f V G NN Z. constructor.
  - apply V.
  - destruct (v_root w V) as (o & O1 & O2 & O3 & O4 & O5). rewrite put_at. destruct (Nat.eqb 0 a) eqn:E; [|exists o; auto]. apply Nat.eqb_eq in E.
    rewrite O1. simpl. exists (f o). destruct (G o) as (G1 & G2). destruct (Z (eq_sym E) o) as (Z1 & Z2). repeat split; congruence.
  - intros x b E. destruct (v_name w V x b E) as (NZ & o & O1 & O2 & O3). split; auto. rewrite put_at, O1. destruct (Nat.eqb b a); simpl; [|eauto].
    exists (f o). destruct (G o). repeat split; congruence.
  - intros b o E T. rewrite put_at in E. destruct (Nat.eqb b a) eqn:X; [|apply (v_new w V b o); auto]. apply Nat.eqb_eq in X. subst b.
    destruct (nth_error (heap w) a) as [o1|] eqn:O1; [|discriminate]. simpl in E. inv E. destruct (G o1) as (G1 & G2). rewrite G1. apply NN; auto. congruence.
Qed.
Lemma sinv_named : forall w x a f, sinv w -> dget x (names w) = Some a -> gentle f -> sinv (put a f w).
Proof.
  intros w x a f V E G. destruct (v_name w V x a E) as (NZ & o & O1 & O2 & O3). apply sinv_put; auto; [|congruence]. intros o' O' T. congruence.
Qed.
Lemma sinv_top : forall w g, sinv w -> sinv (put 0 (fun o => w_chi (g (o_chi o)) o) w).
Proof.
  intros w g V. apply sinv_put; auto; [intros o; simpl; auto|]. intros o O T. destruct (v_root w V) as (o1 & O1 & _ & _ & _ & O5). congruence.
Qed.
Lemma sinv_pend : forall w l, sinv w -> sinv (set_wpend l w).
Proof. intros w l [H1 H2 H3 H4]. constructor; auto. Qed.
Lemma tree_pend : forall w l, tree_of (set_wpend l w) = set_pend l (tree_of w).
Proof. reflexivity. Qed.

(** *** Computations that agree *)
Definition agrees {A B} (Q : world -> A -> B -> Prop) (x : (world * list entry) * res A) (y : mtree * list event * res B) : Prop :=
  match x, y with
  | (s, r), (t, _, r') =>
      r = Diverge \/ r' = Diverge \/
      (t = tree_of (fst s) /\ sinv (fst s) /\
       match r, r' with
       | Ok a, Ok b => Q (fst s) a b
       | Err e, Err e' => e = e'
       | _, _ => False
       end)
  end.
Lemma agrees_hang_l : forall A B (Q : world -> A -> B -> Prop) s y, agrees Q (s, Diverge) y.
Proof. intros A B Q s [[t e] r]. left. auto. Qed.
Lemma agrees_hang_r : forall A B (Q : world -> A -> B -> Prop) x t e, agrees Q x (t, e, Diverge).
Proof. intros A B Q [s r] t e. right. left. auto. Qed.
Lemma agrees_bind : forall A B A' B' (Q : world -> A -> B -> Prop) (Q' : world -> A' -> B' -> Prop) (m : O A) (k : A -> O A') (m' : M B) (k' : B -> M B') s t,
  agrees Q (m s) (m' t) -> (forall s1 a b, sinv (fst s1) -> Q (fst s1) a b -> agrees Q' (k a s1) (k' b (tree_of (fst s1)))) ->
  agrees Q' (obind m k s) (bind m' k' t).
Proof.
  intros A B A' B' Q Q' m k m' k' s t H K. unfold obind, bind. destruct (m s) as [s1 r], (m' t) as [[t1 e1] r']. unfold agrees in H.
  destruct H as [->|[->|(-> & V & H)]]; [apply agrees_hang_l|apply agrees_hang_r|].
  destruct r as [a|e|], r' as [b|e'|]; try contradiction.
  - specialize (K s1 a b V H). destruct (k a s1) as [s2 r2], (k' b (tree_of (fst s1))) as [[t2 e2] r2']. exact K.
  - right. right. auto.
Qed.
Lemma agrees_skip : forall A A' B (Q : world -> A' -> B -> Prop) (m : O A) (k : A -> O A') (y : mtree * list event * res B) s s1 a,
  m s = (s1, Ok a) -> agrees Q (k a s1) y -> agrees Q (obind m k s) y.
Proof. intros A A' B Q m k y s s1 a E H. unfold obind. rewrite E. exact H. Qed.
Lemma agrees_nil : forall A B (Q : world -> A -> B -> Prop) x y l, agrees Q x y -> agrees Q x (match y with (t, e, r) => (t, l ++ e, r) end).
Proof. intros A B Q x [[t e] r] l H. exact H. Qed.
Lemma agrees_ret : forall A B (Q : world -> A -> B -> Prop) a b s, sinv (fst s) -> Q (fst s) a b -> agrees Q (oret a s) (ret b (tree_of (fst s))).
Proof. intros. right. right. auto. Qed.
Lemma agrees_raise : forall A B (Q : world -> A -> B -> Prop) e s, sinv (fst s) -> agrees Q (oraise e s) (raise e (tree_of (fst s))).
Proof. intros. right. right. auto. Qed.
Lemma agrees_weaken : forall A B (Q Q' : world -> A -> B -> Prop) x y, agrees Q x y -> (forall w a b, Q w a b -> Q' w a b) -> agrees Q' x y.
Proof. intros A B Q Q' [s r] [[t e] r'] H W. simpl in *. destruct H as [H|[H|(H1 & H2 & H3)]]; auto. right. right. split; auto. split; auto. destruct r, r'; auto. Qed.

(** Names stay; names may go. *)
Definition still {A B} (w : world) : world -> A -> B -> Prop := fun w1 _ _ => names w1 = names w.
Definition stilleq {A} (w : world) : world -> A -> A -> Prop := fun w1 a b => names w1 = names w /\ a = b.
Definition any : world -> unit -> unit -> Prop := fun _ _ _ => True.

Lemma a_mod : forall (f : world -> world) g s, sinv (f (fst s)) -> names (f (fst s)) = names (fst s) -> tree_of (f (fst s)) = g (tree_of (fst s)) ->
  agrees (still (fst s)) (omod f s) (modify g (tree_of (fst s))).
Proof. intros f g s V N T. right. right. simpl. rewrite T. auto. Qed.

Lemma a_create : forall p c s, sinv (fst s) -> agrees (still (fst s)) (create p c s) (create_relationship p c (tree_of (fst s))).
Proof.
  intros p c [w l] V. simpl in V. unfold create, create_relationship, obind, bind, at_name, node_at, omod, modify. cbn [fst snd]. rewrite tree_get.
  destruct (dget p (names w)) as [pa|] eqn:Ep; [|right; right; auto]. cbn [option_map fst snd]. rewrite tree_get.
  destruct (dget c (names w)) as [ca|] eqn:Ec; [|right; right; auto]. cbn [option_map fst snd app]. unfold agrees.
  right. right. cbn [fst snd].
  set (f1 := fun o => if mem c (o_chi o) then o else w_chi (o_chi o ++ [c]) o). set (f2 := fun o => if mem p (o_par o) then o else w_par (o_par o ++ [p]) o).
  assert (V1 : sinv (put pa f1 w)). { apply (sinv_named w p pa); auto. intros o. unfold f1. destruct (mem c (o_chi o)); auto. }
  assert (V2 : sinv (put ca f2 (put pa f1 w))). { apply (sinv_named _ c ca); auto. intros o. unfold f2. destruct (mem p (o_par o)); auto. }
  split; [|split; [apply (sinv_top _ (remove1 c)); auto|reflexivity]].
  rewrite (tree_top _ (remove1 c) V2). f_equal; [|].
  - f_equal. change (top (put ca f2 (put pa f1 w))) with (rootc (tree_of (put ca f2 (put pa f1 w)))). f_equal. symmetry.
    rewrite (tree_put _ c ca f2 (fun nd => if mem p (par nd) then nd else set_par (par nd ++ [p]) nd)); auto.
    + f_equal. apply tree_put; auto. intros o _. unfold f1, node_of. simpl. destruct (mem c (o_chi o)); auto.
    + intros o _. unfold f2, node_of. simpl. destruct (mem p (o_par o)); auto.
  - symmetry. rewrite (tree_put _ c ca f2 (fun nd => if mem p (par nd) then nd else set_par (par nd ++ [p]) nd)); auto.
    + f_equal. apply tree_put; auto. intros o _. unfold f1, node_of. simpl. destruct (mem c (o_chi o)); auto.
    + intros o _. unfold f2, node_of. simpl. destruct (mem p (o_par o)); auto.
Qed.
Lemma a_destroy : forall p c s, sinv (fst s) -> agrees (still (fst s)) (destroy p c s) (destroy_relationship p c (tree_of (fst s))).
Proof.
  intros p c [w l] V. simpl in V. unfold destroy, destroy_relationship, obind, bind, at_name, node_at, omod, modify. cbn [fst snd]. rewrite tree_get.
  destruct (dget p (names w)) as [pa|] eqn:Ep; [|right; right; auto]. cbn [option_map fst snd]. rewrite tree_get.
  destruct (dget c (names w)) as [ca|] eqn:Ec; [|right; right; auto]. cbn [option_map fst snd app]. unfold agrees.
  right. right. cbn [fst snd].
  set (f1 := fun o => w_chi (remove1 c (o_chi o)) o). set (f2 := fun o => w_par (remove1 p (o_par o)) o).
  assert (V1 : sinv (put pa f1 w)). { apply (sinv_named w p pa); auto. intros o. unfold f1. auto. }
  assert (V2 : sinv (put ca f2 (put pa f1 w))). { apply (sinv_named _ c ca); auto. intros o. unfold f2. auto. }
  split; [|split; [auto|reflexivity]]. symmetry.
  rewrite (tree_put _ c ca f2 (fun nd => set_par (remove1 p (par nd)) nd)); auto. f_equal. apply tree_put; auto.
Qed.

Lemma a_circular : forall fuel p c s, sinv (fst s) -> agrees (stilleq (fst s)) (circular fuel p c s) (is_circular p c (tree_of (fst s))).
Proof.
  intros fuel p c [w l] V. simpl in V. unfold circular, is_circular. cbn [fst]. destruct (walk fuel w c [p]) as [v|e|] eqn:W; [| |apply agrees_hang_l].
  - destruct (loop _ (circ_step (tree_of w) c) [p]) as [g|b] eqn:L; [apply agrees_hang_r|]. right. right. split; [reflexivity|]. split; [exact V|]. split; [reflexivity|].
    edestruct (loop_invariant (circ_step (tree_of w) c) (fun a => exists k, walk k w c a = Ok v)) as (a & (k & K) & S); [| |exact L|]; [|eauto|].
    + intros a a' (k & K) S. destruct a as [|x a]; [discriminate|]. unfold circ_step in S. destruct k; [discriminate|]. cbn [walk] in K.
      destruct (String.eqb x c); [discriminate|]. rewrite tree_get in S. destruct (dget x (names w)) as [b'|] eqn:D; cbn [option_map] in S; inv S; eauto.
      destruct (at_name_addr w x b' V D) as (o & O1 & _ & _ & O4). rewrite O1 in K. rewrite O4. eauto.
    + destruct a as [|x a]; unfold circ_step in S; [inv S; destruct k; inv K; auto|]. destruct k; [discriminate|]. cbn [walk] in K.
      destruct (String.eqb x c); [inv S; inv K; auto|]. destruct (dget x (nodes (tree_of w))); discriminate.
  - exfalso. assert (NE : forall k a, walk k w c a <> Err e).
    { induction k as [|k IH]; intros [|x a]; simpl; try discriminate. destruct (String.eqb x c); [discriminate|].
      destruct (dget x (names w)) as [b'|] eqn:D; auto. destruct (at_name_addr w x b' V D) as (o & O1 & _). rewrite O1. auto. }
    apply (NE fuel [p]); auto.
Qed.

Lemma a_get : forall s, sinv (fst s) -> agrees (fun w a b => w = fst s /\ a = w /\ b = tree_of w) (oget s) (get (tree_of (fst s))).
Proof. intros [w l] V. right. right. simpl. auto. Qed.
Lemma a_forget : forall r s, sinv (fst s) -> agrees (still (fst s)) (forget r s) (pend_remove r (tree_of (fst s))).
Proof.
  intros r [w l] V. unfold forget, pend_remove, obind, oget. cbn [fst]. change (pend (tree_of w)) with (wpend w). destruct (rel_mem r (wpend w)); right; right; simpl; auto.
  split; auto. split; [apply sinv_pend; auto|reflexivity].
Qed.
Lemma a_remember : forall r s, sinv (fst s) -> agrees (still (fst s)) (remember r s) (pend_append r (tree_of (fst s))).
Proof. intros r [w l] V. apply a_mod; auto. apply sinv_pend. auto. Qed.

(** Bind on both sides; the names stay. *)
Lemma still_bind : forall A B A' B' (Q : world -> A -> B -> Prop) (Q' : world -> A' -> B' -> Prop) (m : O A) (k : A -> O A') (m' : M B) (k' : B -> M B') s,
  agrees Q (m s) (m' (tree_of (fst s))) -> (forall s1 a b, sinv (fst s1) -> Q (fst s1) a b -> agrees Q' (k a s1) (k' b (tree_of (fst s1)))) ->
  agrees Q' (obind m k s) (bind m' k' (tree_of (fst s))).
Proof. intros. eapply agrees_bind; eauto. Qed.
Lemma get_bind : forall A' B' (Q' : world -> A' -> B' -> Prop) (k : world -> O A') (k' : mtree -> M B') s, sinv (fst s) ->
  agrees Q' (k (fst s) s) (k' (tree_of (fst s)) (tree_of (fst s))) -> agrees Q' (obind oget k s) (bind get k' (tree_of (fst s))).
Proof.
  intros A' B' Q' k k' s V H. unfold obind, oget, bind, get. destruct (k (fst s) s) as [s1 r], (k' (tree_of (fst s)) (tree_of (fst s))) as [[t e] r']. exact H.
Qed.

Ltac weak t := eapply agrees_weaken; [t|let w := fresh in let a := fresh in let b := fresh in intros w a b; unfold still, stilleq; intuition congruence].

Lemma a_build : forall fuel n r b s, sinv (fst s) -> agrees (stilleq (fst s)) (build fuel n r b s) (build_pending n r b (tree_of (fst s))).
Proof.
  intros fuel n r b s V. unfold build, build_pending. apply get_bind; auto. rewrite tree_opt.
  apply still_bind with (Q := stilleq (fst s)).
  - destruct (String.eqb (snd r) n && onamed (fst s) (fst r)); [|apply agrees_ret; auto; split; auto]. destruct (fst r) as [p|]; [|apply agrees_ret; auto; split; auto].
    eapply still_bind; [apply a_circular; auto|]. intros s1 c c' V1 (N1 & <-). apply still_bind with (Q := stilleq (fst s)).
    + destruct c; [apply agrees_ret; auto; split; auto|]. eapply still_bind; [apply a_create; auto|]. intros s2 u u' V2 N2. apply agrees_ret; auto. split; auto. congruence.
    + intros s2 a a' V2 (N2 & <-). eapply still_bind; [apply a_forget; auto|]. intros s3 u u' V3 N3. apply agrees_ret; auto. split; auto. congruence.
  - intros s1 a a' V1 (N1 & <-). apply get_bind; auto. rewrite tree_named.
    destruct (match fst r with Some p => String.eqb p n | None => false end && named (fst s1) (snd r)); [|apply agrees_ret; auto; split; auto].
    eapply still_bind; [apply a_circular; auto|]. intros s2 c c' V2 (N2 & <-). apply still_bind with (Q := @still unit unit (fst s)).
    + destruct c; [apply agrees_ret; auto; unfold still; congruence|]. weak ltac:(apply a_create; auto).
    + intros s3 u u' V3 N3. eapply still_bind; [apply a_forget; auto|]. intros s4 u2 u3 V4 N4. apply agrees_ret; auto. split; auto. congruence.
Qed.
Lemma a_builds : forall fuel n l b s, sinv (fst s) -> agrees (stilleq (fst s)) (builds fuel n l b s) (build_pendings n l b (tree_of (fst s))).
Proof.
  intros fuel n l. induction l as [|r l IH]; intros b s V; cbn [builds build_pendings]; [apply agrees_ret; auto; split; auto|].
  eapply still_bind; [apply a_build; auto|]. intros s1 a a' V1 (N1 & <-). weak ltac:(apply IH; auto).
Qed.

Section Look.
  Variable self : call -> O unit.
  Variable fuel : nat.

  Lemma a_notify : forall ev n s, sinv (fst s) -> agrees (still (fst s)) (notify quiet self fuel ev n s) (callback ev n (tree_of (fst s))).
  Proof. intros ev n s V. unfold notify, obind, olog, callback. destruct fuel; cbn [listen quiet]; (right; right; split; [reflexivity|]; split; [exact V|]; reflexivity). Qed.

  Lemma tree_new : forall w a o, sinv w -> named w (o_id o) = false -> nth_error (heap w) a = Some o -> o_tree o = false ->
    let w' := set_names (dset (o_id o) a (names w)) (put a (w_npend []) (put a (w_tree true) w)) in
    sinv w' /\ tree_of w' = set_nodes (dset (o_id o) (set_npend [] (node_of o)) (nodes (tree_of w))) (tree_of w).
  Proof.
    intros w a o V N O T w'. assert (NN : ~ In (o_id o) (dkeys (names w))) by (apply dmem_false; exact N).
    assert (NZ : a <> 0). { intros ->. destruct (v_root w V) as (o1 & O1 & _ & _ & _ & O5). congruence. }
    assert (OT : forall x b, dget x (names w) = Some b -> b <> a). { intros x b E ->. destruct (v_name w V x a E) as (_ & o1 & O1 & _ & O3). congruence. }
    assert (AT : forall b, b <> a -> nth_error (heap w') b = nth_error (heap w) b).
    { intros b NE. unfold w'. simpl. rewrite !nth_upd. apply Nat.eqb_neq in NE. rewrite NE. auto. }
    assert (AA : nth_error (heap w') a = Some (w_npend [] (w_tree true o))). { unfold w'. simpl. rewrite !nth_upd, Nat.eqb_refl, O. auto. }
    assert (NM : names w' = dset (o_id o) a (names w)) by reflexivity.
    split.
    - constructor.
      + rewrite NM. apply dset_NoDup. apply V.
      + rewrite AT; auto. apply V.
      + intros x b E. rewrite NM, dget_dset in E. destruct (String.eqb x (o_id o)) eqn:X.
        * inv E. apply eqb_eq in X. subst x. split; auto. rewrite AA. eexists. split; eauto.
        * destruct (v_name w V x b E) as (B1 & B2). split; auto. rewrite AT; eauto.
      + intros b o1 E1 T1. destruct (Nat.eq_dec b a) as [->|NE]; [rewrite AA in E1; inv E1; discriminate|]. rewrite AT in E1; auto. apply (v_new w V b); auto.
    - unfold tree_of at 1, set_nodes. rewrite NM. f_equal.
      + rewrite !dset_notin; auto; [|unfold tree_of; cbn [nodes]; rewrite dkeys_map; auto]. rewrite map_app. f_equal.
        * apply map_ext_in. intros [x b] I. simpl. f_equal. unfold node_at_addr. rewrite AT; auto. apply (OT x). apply In_pair_dget; auto. apply V.
        * simpl. f_equal. f_equal. unfold node_at_addr. rewrite AA. reflexivity.
      + unfold top. rewrite AT; auto.
  Qed.

  Lemma a_add : forall a o p s, sinv (fst s) -> nth_error (heap (fst s)) a = Some o -> o_tree o = false \/ named (fst s) (o_id o) = true ->
    agrees any (add quiet self fuel a p s) (add_node (o_id o) (node_of o) p (tree_of (fst s))).
  Proof.
    intros a o p s V O T. unfold add, add_node. eapply agrees_skip; [unfold at_addr; rewrite O; reflexivity|]. cbv zeta. apply get_bind; auto. rewrite tree_named.
    destruct (named (fst s) (o_id o)) eqn:N; [apply agrees_ret; auto; exact I|]. destruct T as [T|T]; [|discriminate].
    destruct (tree_new (fst s) a o V N O T) as (V' & T').
    set (l := merge_pending (o_npend o) (wpend (fst s))).
    eapply agrees_skip; [reflexivity|]. eapply agrees_skip; [reflexivity|]. eapply agrees_skip; [reflexivity|]. eapply agrees_skip; [reflexivity|]. cbn [fst snd].
    match goal with |- agrees _ (_ ?s1) _ => set (s0 := s1) end.
    assert (E0 : fst s0 = set_wpend l (set_names (dset (o_id o) a (names (fst s))) (put a (w_npend []) (put a (w_tree true) (fst s))))) by reflexivity.
    assert (V0 : sinv (fst s0)) by (rewrite E0; apply sinv_pend; exact V').
    assert (T0 : set_nodes (dset (o_id o) (set_npend [] (node_of o)) (nodes (tree_of (fst s)))) (set_pend l (tree_of (fst s))) = tree_of (fst s0)) by (rewrite E0, tree_pend, T'; reflexivity).
    clearbody s0. assert (BB : forall (k' : M unit), agrees any (obind oget (fun w1 => obind (builds fuel (o_id o) (wpend w1) true) (fun b => obind (match p with None => oret b | Some p0 => obind (circular fuel p0 (o_id o)) (fun circ => if circ then oraise Circular else obind oget (fun w2 => if named w2 p0 then obind (create p0 (o_id o)) (fun _ => oret false) else obind (remember (Some p0, o_id o)) (fun _ => oret b))) end) (fun b' => obind (if b' then omod (put 0 (fun o1 => w_chi (o_chi o1 ++ [o_id o]) o1)) else oret tt) (fun _ => notify quiet self fuel EAdded (o_id o))))) s0) (k' (tree_of (fst s0))) ->
      agrees any (obind oget (fun w1 => obind (builds fuel (o_id o) (wpend w1) true) (fun b => obind (match p with None => oret b | Some p0 => obind (circular fuel p0 (o_id o)) (fun circ => if circ then oraise Circular else obind oget (fun w2 => if named w2 p0 then obind (create p0 (o_id o)) (fun _ => oret false) else obind (remember (Some p0, o_id o)) (fun _ => oret b))) end) (fun b' => obind (if b' then omod (put 0 (fun o1 => w_chi (o_chi o1 ++ [o_id o]) o1)) else oret tt) (fun _ => notify quiet self fuel EAdded (o_id o))))) s0)
        (bind (modify (fun t => set_pend (merge_pending (npend (node_of o)) (pend t)) t)) (fun _ => bind (modify (fun t => set_nodes (dset (o_id o) (set_npend [] (node_of o)) (nodes t)) t)) (fun _ => k')) (tree_of (fst s)))).
    { intros k' H. unfold bind, modify. cbn [fst snd]. change (set_nodes (dset (o_id o) (set_npend [] (node_of o)) (nodes (set_pend (merge_pending (npend (node_of o)) (pend (tree_of (fst s)))) (tree_of (fst s))))) (set_pend (merge_pending (npend (node_of o)) (pend (tree_of (fst s)))) (tree_of (fst s)))) with (set_nodes (dset (o_id o) (set_npend [] (node_of o)) (nodes (tree_of (fst s)))) (set_pend l (tree_of (fst s)))). rewrite T0. destruct (k' (tree_of (fst s0))) as [[t e] r]. exact H. }
    apply BB. clear BB. apply get_bind; auto.
    eapply still_bind; [apply a_builds; auto|]. intros s1 b b' V1 (N1 & <-). apply still_bind with (Q := fun _ x y => x = y).
    - destruct p as [p|]; [|apply agrees_ret; auto]. eapply still_bind; [apply a_circular; auto|]. intros s2 c c' V2 (N2 & <-). destruct c; [apply agrees_raise; auto|].
      apply get_bind; auto. rewrite tree_named. destruct (named (fst s2) p).
      + eapply still_bind; [apply a_create; auto|]. intros s3 u u' V3 N3. apply agrees_ret; auto.
      + eapply still_bind; [apply a_remember; auto|]. intros s3 u u' V3 N3. apply agrees_ret; auto.
    - intros s2 c c' V2 <-. apply still_bind with (Q := any).
      + destruct c; [|apply agrees_ret; auto; exact I]. eapply agrees_weaken; [apply a_mod; [apply (sinv_top _ (fun l => l ++ [o_id o])); auto|reflexivity|]|intros; exact I].
        rewrite (tree_top _ (fun l => l ++ [o_id o]) V2). reflexivity.
      + intros s3 u u' V3 _. eapply agrees_weaken; [apply a_notify; auto|intros; exact I].
  Qed.

  Lemma a_at : forall n a s, sinv (fst s) -> dget n (names (fst s)) = Some a ->
    agrees (fun w o nd => w = fst s /\ nth_error (heap w) a = Some o /\ o_id o = n /\ o_tree o = true /\ nd = node_of o) (at_addr a s) (node_at n (tree_of (fst s))).
  Proof.
    intros n a [w l] V E. simpl in V, E. destruct (at_name_addr w n a V E) as (o & O1 & O2 & O3 & O4). unfold at_addr, node_at. cbn [fst]. rewrite O1, tree_get, E. cbn [option_map].
    rewrite O4. right. right. auto 10.
  Qed.
  Lemma a_live : forall n a s, sinv (fst s) -> dget n (names (fst s)) = Some a ->
    agrees (fun w o nd => w = fst s /\ nth_error (heap w) a = Some o /\ o_id o = n /\ o_tree o = true /\ nd = node_of o) (at_addr a s) (live n (tree_of (fst s))).
  Proof.
    intros n a [w l] V E. simpl in V, E. destruct (at_name_addr w n a V E) as (o & O1 & O2 & O3 & O4). unfold at_addr, live. cbn [fst]. rewrite O1, tree_get, E. cbn [option_map].
    rewrite O4. right. right. auto 10.
  Qed.
  Lemma a_name : forall n s, sinv (fst s) -> agrees (fun w a nd => w = fst s /\ dget n (names w) = Some a /\ nd = node_at_addr w a) (at_name n s) (node_at n (tree_of (fst s))).
  Proof.
    intros n [w l] V. unfold at_name, node_at. cbn [fst]. rewrite tree_get. destruct (dget n (names w)) as [a|] eqn:E; right; right; auto.
  Qed.

  Lemma a_cut_parents : forall n a k f i s, sinv (fst s) -> dget n (names (fst s)) = Some a ->
    agrees (still (fst s)) (cut_parents quiet self fuel k a n i s) (remove_parents f n i (tree_of (fst s))).
  Proof.
    intros n a k. induction k as [|k IH]; intros f i s V E; destruct f as [|f]; cbn [cut_parents remove_parents];
      (eapply still_bind; [apply a_at; eauto|]; intros s1 o nd V1 (N1 & O1 & _ & _ & ->); cbn [node_of par];
       destruct (nth_error (o_par o) i) as [p|]; [|apply agrees_ret; auto; unfold still; congruence]).
    - apply agrees_hang_l.
    - apply agrees_hang_l.
    - apply agrees_hang_r.
    - eapply still_bind; [apply a_destroy; auto|]. intros s2 u u' V2 N2. eapply still_bind; [apply a_notify; auto|]. intros s3 u2 u3 V3 N3.
      weak ltac:(apply IH; auto; congruence).
  Qed.

  Lemma a_top_add : forall c s, sinv (fst s) -> agrees (still (fst s)) (omod (put 0 (fun o => w_chi (o_chi o ++ [c]) o)) s) (modify (fun t => set_rootc (rootc t ++ [c]) t) (tree_of (fst s))).
  Proof. intros c s V. apply a_mod; [apply (sinv_top _ (fun l => l ++ [c])); auto|reflexivity|]. apply (tree_top _ (fun l => l ++ [c]) V). Qed.
  Lemma a_top_del : forall c s, sinv (fst s) -> agrees (still (fst s)) (omod (put 0 (fun o => w_chi (remove1 c (o_chi o)) o)) s) (modify (fun t => set_rootc (remove1 c (rootc t)) t) (tree_of (fst s))).
  Proof. intros c s V. apply a_mod; [apply (sinv_top _ (remove1 c)); auto|reflexivity|]. apply (tree_top _ (remove1 c) V). Qed.

  Lemma a_cut_child : forall n c s, sinv (fst s) -> agrees (still (fst s)) (cut_child quiet self fuel n c s) (remove_child n c (tree_of (fst s))).
  Proof.
    intros n c s V. unfold cut_child, remove_child. eapply still_bind; [apply a_destroy; auto|]. intros s1 u u' V1 N1. eapply still_bind; [apply a_notify; auto|]. intros s2 u2 u3 V2 N2.
    unfold obind at 1, bind at 1, at_name, node_at. rewrite tree_get. destruct (dget c (names (fst s2))) as [ca|] eqn:E; cbn [option_map]; [|right; right; auto].
    destruct (at_name_addr (fst s2) c ca V2 E) as (o & O1 & _ & _ & O4). unfold obind at 1, at_addr. rewrite O1, O4. cbn [node_of par].
    assert (X : agrees (still (fst s)) ((match o_par o with [] => omod (put 0 (fun o0 => w_chi (o_chi o0 ++ [c]) o0)) | _ => oret tt end) s2) ((match o_par o with [] => modify (fun t => set_rootc (rootc t ++ [c]) t) | _ => ret tt end) (tree_of (fst s2)))).
    { destruct (o_par o); [weak ltac:(apply a_top_add; auto)|apply agrees_ret; auto; unfold still; congruence]. }
    destruct ((match o_par o with [] => omod _ | _ => oret tt end) s2) as [s3 r3]. destruct ((match o_par o with [] => modify _ | _ => ret tt end) (tree_of (fst s2))) as [[t3 e3] r3']. exact X.
  Qed.

  Lemma a_each : forall X (Q : world -> Prop) (l : list X) b b' s, sinv (fst s) -> Q (fst s) ->
    (forall x s1, sinv (fst s1) -> Q (fst s1) -> agrees (fun w _ _ => Q w) (b x s1) (b' x (tree_of (fst s1)))) ->
    agrees (fun w _ _ => Q w) (oeach l b s) (for_each l b' (tree_of (fst s))).
  Proof.
    intros X Q l b b' s V q H. revert s V q. induction l as [|x l IH]; intros s V q; cbn [oeach for_each]; [apply agrees_ret; auto|].
    eapply still_bind; [apply H; auto|]. intros s1 u u' V1 q1. apply IH; auto.
  Qed.

  Lemma a_remove : forall k f n b s, sinv (fst s) -> agrees any (remove quiet self fuel k n b s) (remove_node f n b (tree_of (fst s))).
  Proof.
    intros k. induction k as [|k IH]; intros f n b s V; (destruct f as [|f]; cbn [remove remove_node];
      (apply get_bind; auto; rewrite tree_named; destruct (negb (named (fst s) n)); [apply agrees_ret; auto; exact I|];
       eapply still_bind; [apply a_mod with (f := fun w => set_wpend (filter (fun r => negb (mentions n r)) (wpend w)) w); [apply sinv_pend; auto|reflexivity|reflexivity]|]; intros s1 u u' V1 N1;
       eapply still_bind; [apply a_name; auto|]; intros s2 a nd V2 (N2 & E2 & _); eapply still_bind; [apply a_cut_parents; auto|]; intros s3 u2 u3 V3 N3;
       eapply still_bind; [apply a_at with (n := n); auto; congruence|]; intros s4 o nd' V4 (_ & _ & _ & _ & ->))); try apply agrees_hang_l; try apply agrees_hang_r.
    apply still_bind with (Q := any).
    - apply (a_each _ (fun _ => True)); auto. intros c s5 V5 _. destruct b; [eapply agrees_weaken; [apply IH; auto|auto]|eapply agrees_weaken; [apply a_cut_child; auto|auto]].
    - intros s5 u4 u5 V5 _. eapply still_bind; [apply a_top_del; auto|]. intros s6 u6 u7 V6 N6. eapply still_bind; [apply a_name; auto|]. intros s7 a' nd' V7 (N7 & E7 & _).
      apply still_bind with (Q := any).
      + right. right. simpl. split; [|split; [|exact I]].
        * unfold tree_of, set_nodes, set_names. simpl. f_equal. symmetry. apply ddel_map.
        * constructor; simpl.
          -- apply ddel_NoDup. apply V7.
          -- apply V7.
          -- intros x a1 E. rewrite dget_ddel in E; [|apply V7]. destruct (String.eqb x n); [discriminate|]. apply (v_name _ V7); auto.
          -- intros a1 o1. apply (v_new _ V7).
      + intros s8 u8 u9 V8 _. eapply agrees_weaken; [apply a_notify; auto|intros; exact I].
  Qed.

  Lemma a_announce : forall n s, sinv (fst s) -> agrees (still (fst s)) (announce quiet self fuel n s) (modify_node n (tree_of (fst s))).
  Proof.
    intros n s V. unfold announce, modify_node. apply get_bind; auto. rewrite tree_named. destruct (_ && _); [apply a_notify; auto|apply agrees_ret; auto; reflexivity].
  Qed.

  Lemma a_relate : forall p c s, sinv (fst s) -> agrees (still (fst s)) (relate quiet self fuel p c s) (new_relationship p c (tree_of (fst s))).
  Proof.
    intros p c s V. unfold relate, new_relationship.
    eapply still_bind; [apply a_mod with (f := fun w => set_wpend (rel_remove1 (Some p, c) (wpend w)) w); [apply sinv_pend; auto|reflexivity|reflexivity]|]. intros s1 u u' V1 N1.
    destruct (_ || _); [apply agrees_ret; auto|]. apply get_bind; auto. rewrite !tree_named. destruct (_ || _); [weak ltac:(apply a_remember; auto)|].
    eapply still_bind; [apply a_circular; auto|]. intros s2 ci ci' V2 (N2 & <-). destruct ci.
    - eapply still_bind; [apply a_destroy; auto|]. intros s3 u2 u3 V3 N3. apply agrees_raise; auto.
    - eapply still_bind; [apply a_create; auto|]. intros s3 u2 u3 V3 N3. eapply still_bind; [apply a_top_del; auto|]. intros s4 u4 u5 V4 N4.
      eapply still_bind; [apply a_notify; auto|]. intros s5 u6 u7 V5 N5. weak ltac:(apply a_notify; auto).
  Qed.

  Lemma a_root_child : forall c s, sinv (fst s) -> agrees (still (fst s)) (obj_add_child quiet self fuel 0 c s) (root_add_child c (tree_of (fst s))).
  Proof.
    intros c s V. unfold obj_add_child, root_add_child. destruct (v_root _ V) as (o & O1 & O2 & O3 & O4 & O5).
    eapply agrees_skip; [unfold at_addr; rewrite O1; reflexivity|]. rewrite O4, O2, O5. cbn [andb negb]. destruct (String.eqb c main_root); cbn [negb]; [apply agrees_ret; auto; reflexivity|].
    assert (TP : top (fst s) = o_chi o) by (unfold top; rewrite O1; reflexivity).
    unfold bind at 1, get at 1. change (rootc (tree_of (fst s))) with (top (fst s)). rewrite TP. destruct (mem c (o_chi o)).
    { right. right. split; [reflexivity|]. split; [exact V|]. reflexivity. }
    rewrite tree_get.
    assert (X : agrees (still (fst s)) (obind oget (fun w => if negb (named w c) then remember (Some main_root, c) else obind (at_name c) (fun ca => obind (at_addr ca) (fun co => if o_pen co then obind (omod (put 0 (fun o0 => w_chi (o_chi o0 ++ [c]) o0))) (fun _ => relate quiet self fuel main_root c) else oret tt))) s)
      ((match option_map (node_at_addr (fst s)) (dget c (names (fst s))) with None => pend_append (Some main_root, c) | Some cn => if pen cn then bind (modify (fun t => set_rootc (rootc t ++ [c]) t)) (fun _ => new_relationship main_root c) else ret tt end) (tree_of (fst s)))).
    { eapply agrees_skip; [reflexivity|]. unfold named, dmem. destruct (dget c (names (fst s))) as [ca|] eqn:E; cbn [option_map negb]; [|apply a_remember; auto].
      destruct (at_name_addr (fst s) c ca V E) as (co & C1 & _ & _ & C4). eapply agrees_skip; [unfold at_name; rewrite E; reflexivity|]. eapply agrees_skip; [unfold at_addr; rewrite C1; reflexivity|].
      rewrite C4. cbn [node_of pen]. destruct (o_pen co); [|apply agrees_ret; auto; reflexivity]. eapply still_bind; [apply a_top_add; auto|]. intros s1 u u' V1 N1. weak ltac:(apply a_relate; auto). }
    apply agrees_nil. exact X.
  Qed.

  Lemma tree_parents : forall w n a o, sinv w -> dget n (names w) = Some a -> nth_error (heap w) a = Some o -> o_tree o = true -> get_parents (tree_of w) n = obj_parents w o.
  Proof.
    intros w n a o V E O T. unfold get_parents, obj_parents. rewrite tree_get, E. cbn [option_map]. unfold node_at_addr. rewrite O, T, Bool.andb_true_r. cbn [node_of pen par].
    destruct (o_pen o); auto. apply filter_ext. intros x. apply tree_named.
  Qed.
  Lemma tree_children : forall w n a o, sinv w -> dget n (names w) = Some a -> nth_error (heap w) a = Some o -> o_tree o = true -> get_children (tree_of w) n = obj_children w o.
  Proof.
    intros w n a o V E O T. unfold get_children, obj_children. rewrite tree_get, E. cbn [option_map]. unfold node_at_addr. rewrite O, T, Bool.andb_true_r. cbn [node_of cen chi].
    destruct (o_cen o); auto. apply filter_ext. intros x. apply tree_named.
  Qed.

  Lemma a_break : forall p c s, sinv (fst s) -> agrees (still (fst s)) (break quiet self fuel p c s) (break_relationship p c (tree_of (fst s))).
  Proof.
    intros p c s V. unfold break, break_relationship.
    eapply still_bind; [apply a_mod with (f := fun w => set_wpend (filter (fun r => negb (rel_eqb (Some p, c) r)) (wpend w)) w); [apply sinv_pend; auto|reflexivity|reflexivity]|]. intros s1 u u' V1 N1.
    destruct (negb (truthy p) || negb (truthy c) || String.eqb p c); [apply agrees_ret; auto|]. apply get_bind; auto. rewrite !tree_named. destruct (negb (named (fst s1) p) || negb (named (fst s1) c)) eqn:NB; [apply agrees_ret; auto|].
    apply Bool.orb_false_iff in NB. destruct NB as [_ NC]. apply Bool.negb_false_iff in NC. unfold named, dmem in NC. destruct (dget c (names (fst s1))) as [ca|] eqn:E; [|discriminate].
    eapply still_bind; [apply a_destroy; auto|]. intros s2 u2 u3 V2 N2. rewrite <- N2 in E. destruct (v_name _ V2 c ca E) as (_ & co & C1 & _ & C3).
    eapply agrees_skip; [unfold at_name; rewrite E; reflexivity|]. eapply agrees_skip; [unfold at_addr; rewrite C1; reflexivity|]. apply get_bind; auto.
    rewrite (tree_parents _ c ca co); auto. apply still_bind with (Q := @still unit unit (fst s)).
    - destruct (obj_parents (fst s2) co); [weak ltac:(apply a_root_child; auto)|apply agrees_ret; auto; unfold still; congruence].
    - intros s3 u4 u5 V3 N3. eapply still_bind; [apply a_notify; auto|]. intros s4 u6 u7 V4 N4. weak ltac:(apply a_notify; auto).
  Qed.

  (** Methods of an object of the tree. *)
  Lemma a_add_child : forall n a c s, sinv (fst s) -> dget n (names (fst s)) = Some a -> agrees (still (fst s)) (obj_add_child quiet self fuel a c s) (add_child n c (tree_of (fst s))).
  Proof.
    intros n a c s V E. unfold obj_add_child, add_child. eapply still_bind; [apply a_live; eauto|]. intros s1 o nd V1 (N1 & O1 & O2 & O3 & ->). rewrite O2, O3. cbn [node_of cen chi negb].
    destruct (o_cen o && negb (String.eqb c n)); [|apply agrees_ret; auto; unfold still; congruence]. destruct (mem c (o_chi o)); [apply agrees_ret; auto; unfold still; congruence|].
    apply get_bind; auto. rewrite tree_get. unfold named, dmem. destruct (dget c (names (fst s1))) as [ca|] eqn:C; cbn [option_map negb]; [|weak ltac:(apply a_remember; auto)].
    destruct (at_name_addr (fst s1) c ca V1 C) as (co & C1 & _ & _ & C4). eapply agrees_skip; [unfold at_name; rewrite C; reflexivity|]. eapply agrees_skip; [unfold at_addr; rewrite C1; reflexivity|].
    rewrite C4. cbn [node_of pen]. destruct (o_pen co); [|apply agrees_ret; auto; unfold still; congruence].
    assert (E1 : dget n (names (fst s1)) = Some a) by congruence.
    eapply still_bind; [apply a_mod; [apply (sinv_named _ n a); auto; intros o'; simpl; auto|reflexivity|apply tree_put with (f' := fun nd => set_chi (chi nd ++ [c]) nd); auto]|].
    intros s2 u u' V2 N2. weak ltac:(apply a_relate; auto).
  Qed.
  Lemma a_add_parent : forall n a p s, sinv (fst s) -> dget n (names (fst s)) = Some a -> agrees (still (fst s)) (obj_add_parent quiet self fuel a p s) (add_parent n p (tree_of (fst s))).
  Proof.
    intros n a p s V E. unfold obj_add_parent, add_parent. eapply still_bind; [apply a_live; eauto|]. intros s1 o nd V1 (N1 & O1 & O2 & O3 & ->). rewrite O2, O3. cbn [node_of pen par negb].
    destruct (_ && _ && _); [|apply agrees_ret; auto; unfold still; congruence]. apply get_bind; auto. destruct p as [x|]; [|weak ltac:(apply a_remember; auto)].
    rewrite tree_get. unfold named, dmem. destruct (dget x (names (fst s1))) as [pa|] eqn:C; cbn [option_map negb]; [|weak ltac:(apply a_remember; auto)].
    destruct (at_name_addr (fst s1) x pa V1 C) as (po & C1 & _ & _ & C4). eapply agrees_skip; [unfold at_name; rewrite C; reflexivity|]. eapply agrees_skip; [unfold at_addr; rewrite C1; reflexivity|].
    rewrite C4. cbn [node_of cen]. destruct (o_cen po); [weak ltac:(apply a_relate; auto)|apply agrees_ret; auto; unfold still; congruence].
  Qed.
  Lemma a_remove_parent : forall n a p s, sinv (fst s) -> dget n (names (fst s)) = Some a -> agrees (still (fst s)) (obj_remove_parent quiet self fuel a p s) (remove_parent n p (tree_of (fst s))).
  Proof.
    intros n a p s V E. unfold obj_remove_parent, remove_parent. eapply still_bind; [apply a_live; eauto|]. intros s1 o nd V1 (N1 & O1 & O2 & O3 & ->). rewrite O2, O3. cbn [node_of pen par].
    destruct (_ && _); [|apply agrees_ret; auto; unfold still; congruence]. assert (E1 : dget n (names (fst s1)) = Some a) by congruence.
    eapply still_bind; [apply a_mod; [apply (sinv_named _ n a); auto; intros o'; simpl; auto|reflexivity|apply tree_put with (f' := fun nd => set_par (remove1 p (par nd)) nd); auto]|].
    intros s2 u u' V2 N2. weak ltac:(apply a_break; auto).
  Qed.
  Lemma a_leave : forall n a p k f i fl s, sinv (fst s) -> dget n (names (fst s)) = Some a ->
    agrees (stilleq (fst s)) (leave_others quiet self fuel k a p i fl s) (drop_other_parents f n p i fl (tree_of (fst s))).
  Proof.
    intros n a p k. induction k as [|k IH]; intros f i fl s V E; destruct f as [|f]; cbn [leave_others drop_other_parents];
      (eapply still_bind; [apply a_live; eauto|]; intros s1 o nd V1 (N1 & O1 & _ & _ & ->); cbn [node_of par];
       destruct (nth_error (o_par o) i) as [q|]; [|apply agrees_ret; auto; split; congruence]).
    - apply agrees_hang_l.
    - apply agrees_hang_l.
    - apply agrees_hang_r.
    - destruct (String.eqb q p); [weak ltac:(apply IH; auto; congruence)|]. eapply still_bind; [apply a_remove_parent; auto; congruence|]. intros s2 u u' V2 N2.
      weak ltac:(apply IH; auto; unfold still in *; congruence).
  Qed.
  Lemma a_set_parent : forall n a p s, sinv (fst s) -> dget n (names (fst s)) = Some a -> agrees (still (fst s)) (obj_set_parent quiet self fuel a p s) (set_parent n p (tree_of (fst s))).
  Proof.
    intros n a p s V E. unfold obj_set_parent, set_parent. eapply still_bind; [apply a_live; eauto|]. intros s1 o nd V1 (N1 & O1 & O2 & O3 & ->). rewrite O2, O3. cbn [node_of pen par negb].
    destruct (_ && _); [|apply agrees_ret; auto; unfold still; congruence]. apply get_bind; auto. assert (E1 : dget n (names (fst s1)) = Some a) by congruence.
    rewrite (tree_parents _ n a o); auto.
    assert (LO : agrees (still (fst s)) (obind (oeach (obj_parents (fst s1) o) (fun q => break quiet self fuel q n)) (fun _ => remember (p, n)) s1)
      (bind (for_each (obj_parents (fst s1) o) (fun q => break_relationship q n)) (fun _ => pend_append (p, n)) (tree_of (fst s1)))).
    { eapply still_bind; [apply (a_each _ (fun w => names w = names (fst s))); [auto|congruence|]|].
      - intros x s2 V2 N2. weak ltac:(apply a_break; auto).
      - intros s2 u u' V2 N2. weak ltac:(apply a_remember; auto). }
    destruct p as [x|]; cbn [onamed negb]; [|exact LO]. rewrite tree_get. unfold named, dmem. destruct (dget x (names (fst s1))) as [pa|] eqn:C; cbn [option_map negb]; [|exact LO].
    destruct (at_name_addr (fst s1) x pa V1 C) as (po & C1 & _ & _ & C4). eapply agrees_skip; [unfold at_name; rewrite C; reflexivity|]. eapply agrees_skip; [unfold at_addr; rewrite C1; reflexivity|].
    rewrite C4. cbn [node_of cen]. destruct (o_cen po); [|apply agrees_ret; auto; unfold still; congruence].
    eapply still_bind; [apply a_leave; eauto|]. intros s2 fl fl' V2 (N2 & <-). destruct (truthy x && negb fl); [|apply agrees_ret; auto; unfold still; congruence].
    weak ltac:(apply a_add_parent; auto; congruence).
  Qed.
  Lemma a_parents_enabled : forall n a b s, sinv (fst s) -> dget n (names (fst s)) = Some a -> agrees (still (fst s)) (obj_parents_enabled quiet self fuel a b s) (set_parents_enabled n b (tree_of (fst s))).
  Proof.
    intros n a b s V E. unfold obj_parents_enabled, set_parents_enabled. eapply still_bind; [apply a_live; eauto|]. intros s1 o nd V1 (N1 & O1 & O2 & O3 & ->).
    apply get_bind; auto. assert (E1 : dget n (names (fst s1)) = Some a) by congruence. rewrite (tree_parents _ n a o); auto. apply still_bind with (Q := fun w _ _ => names w = names (fst s)).
    - destruct b; [apply agrees_ret; auto; congruence|]. apply (a_each _ (fun w => names w = names (fst s))); [auto|congruence|]. intros x s2 V2 N2. weak ltac:(apply a_remove_parent; auto; congruence).
    - intros s2 u u' V2 N2. weak ltac:(apply a_mod; [apply (sinv_named _ n a); [auto|congruence|intros o'; simpl; auto]|reflexivity|apply tree_put with (f' := set_pen b); auto; congruence]).
  Qed.
  Lemma a_children_enabled : forall n a b s, sinv (fst s) -> dget n (names (fst s)) = Some a -> agrees (still (fst s)) (obj_children_enabled quiet self fuel a b s) (set_children_enabled n b (tree_of (fst s))).
  Proof.
    intros n a b s V E. unfold obj_children_enabled, set_children_enabled. eapply still_bind; [apply a_live; eauto|]. intros s1 o nd V1 (N1 & O1 & O2 & O3 & ->). rewrite O2.
    apply get_bind; auto. assert (E1 : dget n (names (fst s1)) = Some a) by congruence. rewrite (tree_children _ n a o); auto. apply still_bind with (Q := fun w _ _ => names w = names (fst s)).
    - destruct b; [apply agrees_ret; auto; congruence|]. apply (a_each _ (fun w => names w = names (fst s))); [auto|congruence|]. intros x s2 V2 N2. weak ltac:(apply a_break; auto).
    - intros s2 u u' V2 N2. weak ltac:(apply a_mod; [apply (sinv_named _ n a); [auto|congruence|intros o'; simpl; auto]|reflexivity|apply tree_put with (f' := set_cen b); auto; congruence]).
  Qed.
End Look.
(** *** Histories *)
Lemma agrees_done : forall A B (Q : world -> A -> B -> Prop) x y, agrees Q x y -> snd x <> Diverge -> snd y <> Diverge -> fst (fst y) = tree_of (fst (fst x)) /\ sinv (fst (fst x)).
Proof. intros A B Q [s r] [[t e] r'] H N N'. simpl in *. destruct H as [H|[H|(H1 & H2 & _)]]; [congruence|congruence|auto]. Qed.

Lemma tree_apart : forall w a f, sinv w -> (forall x, dget x (names w) <> Some a) -> a <> 0 -> tree_of (put a f w) = tree_of w.
Proof.
  intros w a f V D NZ. unfold tree_of. f_equal.
  - apply map_ext_in. intros [x b] I. simpl. f_equal. unfold node_at_addr. rewrite put_at. destruct (Nat.eqb b a) eqn:E; auto. apply Nat.eqb_eq in E. subst b.
    exfalso. apply (D x). apply In_pair_dget; auto. apply V.
  - unfold top. rewrite put_at. destruct a; [congruence|auto].
Qed.
(** An object that was never in the tree. *)
Lemma apart : forall w a o, sinv w -> nth_error (heap w) a = Some o -> o_tree o = false -> (forall x, dget x (names w) <> Some a) /\ a <> 0 /\ app_node (o_id o) (node_of o).
Proof.
  intros w a o V O T. split; [|split].
  - intros x E. destruct (v_name w V x a E) as (_ & o' & O1 & _ & O3). congruence.
  - intros ->. destruct (v_root w V) as (o' & O1 & _ & _ & _ & O5). congruence.
  - apply (v_new w V a); auto.
Qed.
Lemma put_apart : forall w a o f, sinv w -> nth_error (heap w) a = Some o -> o_tree o = false -> (forall o', o_id (f o') = o_id o' /\ o_tree (f o') = o_tree o') -> app_node (o_id o) (node_of (f o)) ->
  tree_of (put a f w) = tree_of w /\ sinv (put a f w).
Proof.
  intros w a o f V O T G N. destruct (apart w a o V O T) as (A1 & A2 & A3). split; [apply tree_apart; auto|]. apply sinv_put; auto; [|congruence]. intros o' O' _. congruence.
Qed.

(** Methods of an object before it is added. *)
Lemma apart_call : forall fuel self a o c s s' r, sinv (fst s) -> nth_error (heap (fst s)) a = Some o -> o_tree o = false ->
  (exists p, c = CAddParent a p) \/ (exists p, c = CSetParent a p) \/ (exists p, c = CRemoveParent a p) \/ (exists x, c = CAddChild a x) \/ (exists b, c = CParentsEnabled a b) \/ (exists b, c = CChildrenEnabled a b) ->
  perform quiet self fuel c s = (s', r) -> tree_of (fst s') = tree_of (fst s) /\ sinv (fst s').
Proof.
  intros fuel self a o c [w l] s' r V O T C X. cbn [fst] in *. destruct (apart w a o V O T) as (A1 & A2 & A3). destruct (app_node_facts _ _ A3) as (Ep & Ec & _). cbn [node_of par chi] in Ep, Ec.
  assert (OP : obj_parents w o = []) by (unfold obj_parents; rewrite T, Bool.andb_false_r; auto). assert (OC : obj_children w o = []) by (unfold obj_children; rewrite T, Bool.andb_false_r; auto).
  destruct C as [(p & ->)|[(p & ->)|[(p & ->)|[(x & ->)|[(b & ->)|(b & ->)]]]]]; cbn [perform] in X;
    unfold obj_add_parent, obj_set_parent, obj_remove_parent, obj_add_child, obj_parents_enabled, obj_children_enabled, obind, at_addr, oget, omod in X; cbn [fst snd] in X; rewrite O in X; cbn [fst snd] in X.
  - rewrite T in X. cbn [negb] in X. destruct (negb (oid_eqb p (o_id o)) && o_pen o && negb (match p with Some x => mem x (o_par o) | None => false end)) eqn:G; inv X; auto. cbn [fst].
    apply (put_apart w a o); auto. assert (E : node_of (w_npend (o_npend o ++ [(p, o_id o)]) o) = detached_add_parent (o_id o) p (node_of o)) by (unfold detached_add_parent; cbn [node_of pen par npend]; rewrite G; reflexivity). rewrite E. constructor; auto.
  - rewrite T in X. cbn [negb] in X. destruct (negb (oid_eqb p (o_id o)) && o_pen o) eqn:G; inv X; auto. cbn [fst].
    apply (put_apart w a o); auto. assert (E : node_of (w_npend (o_npend o ++ [(p, o_id o)]) o) = detached_set_parent (o_id o) p (node_of o)) by (unfold detached_set_parent; cbn [node_of pen par npend]; rewrite G; reflexivity). rewrite E. constructor; auto.
  - rewrite Ep in X. cbn [mem] in X. rewrite Bool.andb_false_r in X. inv X. auto.
  - rewrite T in X. cbn [negb] in X. destruct (o_cen o && negb (String.eqb x (o_id o))) eqn:G; [|inv X; auto]. destruct (mem x (o_chi o)) eqn:Mx; inv X; auto. cbn [fst].
    apply (put_apart w a o); auto. assert (E : node_of (w_npend (o_npend o ++ [(Some (o_id o), x)]) o) = detached_add_child (o_id o) x (node_of o)) by (unfold detached_add_child; cbn [node_of cen chi npend]; rewrite G, Mx; reflexivity). rewrite E. constructor; auto.
  - rewrite OP in X. assert (X' : ((put a (w_pen b) w, l), Ok tt) = (s', r)) by (destruct b; exact X). inv X'. cbn [fst]. apply (put_apart w a o); auto. apply (an_pen (o_id o) b (node_of o)). auto.
  - rewrite OC in X. assert (X' : ((put a (w_cen b) w, l), Ok tt) = (s', r)) by (destruct b; exact X). inv X'. cbn [fst]. apply (put_apart w a o); auto. apply (an_cen (o_id o) b (node_of o)). auto.
Qed.

Section Hist.
  Variable Q : mtree -> mop -> Prop.
  Definition QQ (t : mtree) (o : mop) : Prop := fresh_named t o /\ Q t o.

  Lemma step_op : forall o t (x : (world * list entry) * res unit) s' r, reach QQ t -> QQ t o -> agrees any x (run_op o t) -> x = (s', r) -> r <> Diverge ->
    reach QQ (tree_of (fst s')) /\ sinv (fst s').
  Proof.
    intros o t x s' r R q A -> NR. assert (ND : snd (run_op o t) <> Diverge).
    { apply (calls_terminate t); [|apply q]. apply reach_reachx. eapply reach_mono; [|exact R]. intros t0 o0 H. apply H. }
    destruct (agrees_done _ _ _ _ _ A NR ND) as (E & V). cbn [fst] in E, V. split; auto. rewrite <- E. apply (reach_call QQ t o); auto.
  Qed.

  Lemma step_call : forall fuel c s s' r, sinv (fst s) -> reach QQ (tree_of (fst s)) -> proper_and Q (fst s) c -> exec fuel quiet c s = (s', r) -> r <> Diverge ->
    reach QQ (tree_of (fst s')) /\ sinv (fst s').
  Proof.
    intros fuel c s s' r V R (PC & PQ) X NR. destruct fuel as [|f]; cbn [exec] in X; [inv X; congruence|].
    assert (TO : forall o (x : (world * list entry) * res unit), op_of (fst s) c = Some o -> fresh_add o -> named_add o -> agrees any x (run_op o (tree_of (fst s))) -> x = (s', r) -> reach QQ (tree_of (fst s')) /\ sinv (fst s')).
    { intros o x E F1 F2 A Ex. eapply (step_op o (tree_of (fst s)) x); eauto. split; [split; auto|apply PQ; auto]. }
    assert (W : forall A B (Q0 : world -> A -> B -> Prop) x y, agrees Q0 x y -> agrees (fun _ _ _ => True) x y) by (intros; eapply agrees_weaken; eauto; simpl; auto).
    assert (ME : forall a fm, op_of (fst s) c = method (fst s) a fm -> (forall n, fresh_add (fm n) /\ named_add (fm n)) ->
      ((exists p, c = CAddParent a p) \/ (exists p, c = CSetParent a p) \/ (exists p, c = CRemoveParent a p) \/ (exists x, c = CAddChild a x) \/ (exists b, c = CParentsEnabled a b) \/ (exists b, c = CChildrenEnabled a b)) ->
      (forall o, nth_error (heap (fst s)) a = Some o -> o_tree o = false \/ dget (o_id o) (names (fst s)) = Some a) ->
      (nth_error (heap (fst s)) a = None -> s' = s) ->
      (forall n, dget n (names (fst s)) = Some a -> agrees any (perform quiet (exec f quiet) f c s) (run_op (fm n) (tree_of (fst s)))) ->
      reach QQ (tree_of (fst s')) /\ sinv (fst s')).
    { intros a fm E F C PM NO AG. destruct (nth_error (heap (fst s)) a) as [o|] eqn:O; [|rewrite (NO eq_refl); auto].
      destruct (o_tree o) eqn:T.
      - destruct (PM o eq_refl) as [T'|D]; [congruence|]. eapply (TO (fm (o_id o))); [rewrite E; unfold method; rewrite O, T; reflexivity|apply F|apply F|apply AG; auto|exact X].
      - destruct (apart_call f (exec f quiet) a o c s s' r V O T C X) as (E1 & V1). rewrite E1. auto. }
    assert (AB : forall A (m : obj -> O A) a, nth_error (heap (fst s)) a = None -> obind (at_addr a) m s = (s, Err PyException)) by (intros A m a N; unfold obind, at_addr; rewrite N; auto).
    destruct c; cbn [perform proper] in *.
    - inv X. cbn [fst]. assert (E : tree_of (set_heap (heap (fst s) ++ [new_obj n]) (fst s)) = tree_of (fst s)).
      { unfold tree_of. cbn [names set_heap wpend]. f_equal.
        - apply map_ext_in. intros [x a] I. simpl. f_equal. unfold node_at_addr. cbn [heap set_heap]. apply In_pair_dget in I; [|apply V]. destruct (v_name _ V x a I) as (_ & o & O1 & _). rewrite nth_error_app1; [auto|].
          apply nth_error_Some. congruence.
        - unfold top. cbn [heap set_heap]. destruct (v_root _ V) as (o & O1 & _). rewrite nth_error_app1; [auto|]. apply nth_error_Some. congruence. }
      rewrite E. split; auto. constructor; cbn [heap names set_heap].
      + apply V.
      + destruct (v_root _ V) as (o & O1 & O2). exists o. split; auto. rewrite nth_error_app1; auto. apply nth_error_Some. congruence.
      + intros x a D. destruct (v_name _ V x a D) as (NZ & o & O1 & O2). split; auto. exists o. split; auto. rewrite nth_error_app1; auto. apply nth_error_Some. congruence.
      + intros a o O T. destruct (Nat.lt_ge_cases a (length (heap (fst s)))) as [L|L]; [rewrite nth_error_app1 in O; auto; apply (v_new _ V a); auto|].
        rewrite nth_error_app2 in O; auto. destruct (a - length (heap (fst s))) as [|k]; [inv O; constructor|destruct k; discriminate].
    - destruct (nth_error (heap (fst s)) a) as [o|] eqn:O.
      + destruct (PC o eq_refl) as (NE & TN). destruct (named (fst s) (o_id o)) eqn:N.
        * unfold add, obind, at_addr, oget in X. rewrite O in X. cbv zeta in X. rewrite N in X. inv X. auto.
        * destruct TN as [T|T]; [|discriminate]. destruct (apart _ a o V O T) as (_ & _ & A3).
          eapply (TO (AddNode (o_id o) (node_of o) parent) (add quiet (exec f quiet) f a parent s)); [simpl; rewrite O, N; reflexivity|exact A3|exact NE|apply a_add; auto|exact X].
      + unfold add in X. rewrite (AB _ _ a O) in X. inv X. auto.
    - eapply (TO (DelNode n recursive)); [reflexivity|exact I|exact I| |exact X]. simpl. unfold del_node, bind, get. cbn [fst snd].
      apply agrees_nil. apply a_remove. auto.
    - eapply (TO (ModifyNode n)); [reflexivity|exact I|exact I| |exact X]. apply W with (Q0 := still (fst s)). apply a_announce. auto.
    - eapply (TO (NewRelationship p c)); [reflexivity|exact I|exact I| |exact X]. apply W with (Q0 := still (fst s)). apply a_relate. auto.
    - eapply (TO (BreakRelationship p c)); [reflexivity|exact I|exact I| |exact X]. apply W with (Q0 := still (fst s)). apply a_break. auto.
    - eapply (ME a (fun n => AddParent n p)); [reflexivity|intros; split; exact I|eauto|exact PC|intros N; unfold obj_add_parent in X; rewrite (AB _ _ a N) in X; inv X; auto|].
      intros n D. apply W with (Q0 := still (fst s)). apply a_add_parent; auto.
    - eapply (ME a (fun n => SetParent n p)); [reflexivity|intros; split; exact I|eauto|exact PC|intros N; unfold obj_set_parent in X; rewrite (AB _ _ a N) in X; inv X; auto|].
      intros n D. apply W with (Q0 := still (fst s)). apply a_set_parent; auto.
    - eapply (ME a (fun n => RemoveParent n p)); [reflexivity|intros; split; exact I|eauto|exact PC|intros N; unfold obj_remove_parent in X; rewrite (AB _ _ a N) in X; inv X; auto|].
      intros n D. apply W with (Q0 := still (fst s)). apply a_remove_parent; auto.
    - eapply (ME a (fun n => AddChild n c)); [reflexivity|intros; split; exact I|eauto 6|exact PC|intros N; unfold obj_add_child in X; rewrite (AB _ _ a N) in X; inv X; auto|].
      intros n D. apply W with (Q0 := still (fst s)). apply a_add_child; auto.
    - eapply (ME a (fun n => SetParentsEnabled n b)); [reflexivity|intros; split; exact I|eauto 8|exact PC|intros N; unfold obj_parents_enabled in X; rewrite (AB _ _ a N) in X; inv X; auto|].
      intros n D. apply W with (Q0 := still (fst s)). apply a_parents_enabled; auto.
    - eapply (ME a (fun n => SetChildrenEnabled n b)); [reflexivity|intros; split; exact I|eauto 10|exact PC|intros N; unfold obj_children_enabled in X; rewrite (AB _ _ a N) in X; inv X; auto|].
      intros n D. apply W with (Q0 := still (fst s)). apply a_children_enabled; auto.
  Qed.

  Lemma sinv_start : sinv new_world.
  Proof.
    constructor; simpl; [constructor|eexists; split; [reflexivity|auto]|discriminate|]. intros [|[|a]] o E T; inv E. discriminate.
  Qed.
  Lemma completed_tree : forall s, completed (proper_and Q) quiet s -> reach QQ (tree_of (fst s)) /\ sinv (fst s).
  Proof.
    intros s H. induction H as [|s c fuel s' r H (R & V) Pc E NR]; [split; [apply reach_start|exact sinv_start]|]. cbn [fst]. eapply step_call; eauto.
  Qed.
  Lemma ends_tree : forall react s, obeys (proper_and Q) react -> acts_at_ends (proper_and Q) react -> completed (proper_and Q) react s ->
    reach (fun t o => fresh_named t o /\ Q t o) (tree_of (fst s)).
  Proof.
    intros react s OB AE H. destruct (ended_follow (proper_and Q) react OB AE s H) as (s0 & H0 & E). rewrite <- E. apply completed_tree. auto.
  Qed.
End Hist.

Lemma ends_root : forall react s, obeys (proper_and calm) react -> acts_at_ends (proper_and calm) react -> completed (proper_and calm) react s ->
  let t := tree_of (fst s) in
  NoDup (root_children t) /\ (forall x, In x (root_children t) <-> has_node t x = true /\ get_parents t x = []) /\
  (forall x, has_node t x = true -> exists r, In r (root_children t) /\ desc t r x) /\
  (forall p c, In p (get_parents t c) <-> In c (get_children t p)).
Proof.
  intros react s OB AE H t. assert (R : reach calm t).
  { eapply reach_mono; [|apply (ends_tree calm react s OB AE H)]. intros t0 o [_ C]. exact C. }
  destruct (root_exact t R) as (N & E). split; auto. split; auto. split; [intros x; apply reached_from_root; auto|]. apply agree. auto.
Qed.
