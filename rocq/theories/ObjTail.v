(** Calls made by functions registered for 'node-added' (or 'node-deleted') amount to
    calls made one after the other. *)
From Verif Require Import Base BaseFacts MainTree Objects SpecObjects ObjFacts.

(** Two computations that do the same apart from what they write to the log. *)
Definition same {A} (m m' : O A) : Prop := forall s s0, fst s = fst s0 -> fst (fst (m s)) = fst (fst (m' s0)) /\ snd (m s) = snd (m' s0).

Lemma s_bind : forall A B (m m' : O A) (k k' : A -> O B), same m m' -> (forall a, same (k a) (k' a)) -> same (obind m k) (obind m' k').
Proof.
  intros A B m m' k k' Hm Hk s s0 E. destruct (Hm s s0 E) as [E1 E2]. unfold obind. destruct (m s) as [s1 r], (m' s0) as [s1' r']. simpl in E1, E2. subst r'.
  destruct r; auto. apply Hk. auto.
Qed.
Lemma s_ret : forall A (a : A), same (oret a) (oret a).
Proof. intros A a s s0 E. auto. Qed.
Lemma s_raise : forall A e, same (@oraise A e) (oraise e).
Proof. intros A e s s0 E. auto. Qed.
Lemma s_hang : forall A, same (@ohang A) ohang.
Proof. intros A s s0 E. auto. Qed.
Lemma s_get : same oget oget.
Proof. intros s s0 E. simpl. rewrite E. auto. Qed.
Lemma s_mod : forall f, same (omod f) (omod f).
Proof. intros f s s0 E. simpl. rewrite E. auto. Qed.
Lemma s_at_addr : forall a, same (at_addr a) (at_addr a).
Proof. intros a s s0 E. unfold at_addr. rewrite E. destruct (nth_error _ _); auto. Qed.
Lemma s_at_name : forall a, same (at_name a) (at_name a).
Proof. intros a s s0 E. unfold at_name. rewrite E. destruct (dget _ _); auto. Qed.
Lemma s_circular : forall f p c, same (circular f p c) (circular f p c).
Proof. intros f p c s s0 E. unfold circular. simpl. rewrite E. auto. Qed.
Lemma s_each : forall X (l : list X) b b', (forall x, same (b x) (b' x)) -> same (oeach l b) (oeach l b').
Proof. intros X l b b' H. induction l as [|x l IH]; simpl; [apply s_ret|]. apply s_bind; auto. Qed.

Ltac sstep :=
  match goal with
  | |- forall _, _ => intro
  | |- same (obind _ _) (obind _ _) => apply s_bind
  | |- same (oret _) _ => apply s_ret
  | |- same (oraise _) _ => apply s_raise
  | |- same ohang _ => apply s_hang
  | |- same oget _ => apply s_get
  | |- same (omod _) _ => apply s_mod
  | |- same (at_addr _) _ => apply s_at_addr
  | |- same (at_name _) _ => apply s_at_name
  | |- same (circular _ _ _) _ => apply s_circular
  | |- same (oeach _ _) _ => apply s_each
  | |- same (if ?b then _ else _) _ => destruct b
  | |- same (match ?x with _ => _ end) _ => destruct x
  end.

Lemma s_create : forall p c, same (create p c) (create p c).
Proof. intros p c. unfold create. repeat sstep. Qed.
Lemma s_destroy : forall p c, same (destroy p c) (destroy p c).
Proof. intros p c. unfold destroy. repeat sstep. Qed.
Lemma s_forget : forall r, same (forget r) (forget r).
Proof. intros r. unfold forget. repeat sstep. Qed.
Lemma s_remember : forall r, same (remember r) (remember r).
Proof. intros r. unfold remember. repeat sstep. Qed.
Lemma s_builds : forall fuel n l b, same (builds fuel n l b) (builds fuel n l b).
Proof.
  intros fuel n l. induction l as [|r l IH]; intros b; cbn [builds]; repeat sstep; [|apply IH].
  unfold build. repeat sstep; try apply s_create; apply s_forget.
Qed.

Definition quiet : listener := fun _ _ _ _ => Return.

Section Tail.
  Variable react : listener.
  Variables self self' : call -> O unit.
  Variable fuel : nat.
  Hypothesis OA : forall n l w, react EModified n l w = Return.

  Lemma s_notify : forall n, same (notify react self fuel EModified n) (notify quiet self' fuel EModified n).
  Proof.
    intros n s s0 E. unfold notify, obind, olog. destruct fuel; cbn [listen]; rewrite OA; simpl; auto.
  Qed.
  Lemma s_deleted : (forall n l w, react EDeleted n l w = Return) -> forall n, same (notify react self fuel EDeleted n) (notify quiet self' fuel EDeleted n).
  Proof.
    intros OD n s s0 E. unfold notify, obind, olog. destruct fuel; cbn [listen]; rewrite OD; simpl; auto.
  Qed.
  Ltac nfy := apply s_notify.
  Lemma s_cut_parents : forall k a n i, same (cut_parents react self fuel k a n i) (cut_parents quiet self' fuel k a n i).
  Proof. intros k. induction k as [|k IH]; intros a n i; cbn [cut_parents]; repeat sstep; [apply s_destroy|nfy|apply IH]. Qed.
  Lemma s_cut_child : forall n c, same (cut_child react self fuel n c) (cut_child quiet self' fuel n c).
  Proof. intros n c. unfold cut_child. repeat sstep; [apply s_destroy|nfy]. Qed.
  Lemma s_remove : (forall n l w, react EDeleted n l w = Return) -> forall k n b, same (remove react self fuel k n b) (remove quiet self' fuel k n b).
  Proof.
    intros OD k. induction k as [|k IH]; intros n b; cbn [remove]; repeat sstep; try apply s_cut_parents; try (apply s_deleted; exact OD); try apply s_cut_child; apply IH.
  Qed.
  Lemma s_announce : forall n, same (announce react self fuel n) (announce quiet self' fuel n).
  Proof. intros n. unfold announce. repeat sstep. nfy. Qed.
  Lemma s_relate : forall p c, same (relate react self fuel p c) (relate quiet self' fuel p c).
  Proof. intros p c. unfold relate. repeat sstep; try apply s_remember; try apply s_destroy; try apply s_create; nfy. Qed.
  Lemma s_add_child : forall a c, same (obj_add_child react self fuel a c) (obj_add_child quiet self' fuel a c).
  Proof. intros a c. unfold obj_add_child. repeat sstep; try apply s_remember; apply s_relate. Qed.
  Lemma s_break : forall p c, same (break react self fuel p c) (break quiet self' fuel p c).
  Proof. intros p c. unfold break. repeat sstep; try apply s_destroy; try apply s_add_child; nfy. Qed.
  Lemma s_add_parent : forall a p, same (obj_add_parent react self fuel a p) (obj_add_parent quiet self' fuel a p).
  Proof. intros a p. unfold obj_add_parent. repeat sstep; try apply s_remember; apply s_relate. Qed.
  Lemma s_remove_parent : forall a p, same (obj_remove_parent react self fuel a p) (obj_remove_parent quiet self' fuel a p).
  Proof. intros a p. unfold obj_remove_parent. repeat sstep; apply s_break. Qed.
  Lemma s_leave : forall k a p i fl, same (leave_others react self fuel k a p i fl) (leave_others quiet self' fuel k a p i fl).
  Proof. intros k. induction k as [|k IH]; intros a p i fl; cbn [leave_others]; repeat sstep; try apply s_remove_parent; apply IH. Qed.
  Lemma s_set_parent : forall a p, same (obj_set_parent react self fuel a p) (obj_set_parent quiet self' fuel a p).
  Proof. intros a p. unfold obj_set_parent. repeat sstep; try apply s_remember; try apply s_break; try apply s_leave; apply s_add_parent. Qed.
  Lemma s_parents_enabled : forall a b, same (obj_parents_enabled react self fuel a b) (obj_parents_enabled quiet self' fuel a b).
  Proof. intros a b. unfold obj_parents_enabled. repeat sstep; apply s_remove_parent. Qed.
  Lemma s_children_enabled : forall a b, same (obj_children_enabled react self fuel a b) (obj_children_enabled quiet self' fuel a b).
  Proof. intros a b. unfold obj_children_enabled. repeat sstep; apply s_break. Qed.

  (** An addition ends with what the functions do. *)
  Definition tails (m m' : O unit) : Prop := forall s s0, fst s = fst s0 ->
    (fst (fst (m s)) = fst (fst (m' s0)) /\ snd (m s) = snd (m' s0)) \/
    (exists ev n s1, m s = listen react self ev n fuel s1 /\ fst s1 = fst (fst (m' s0)) /\ snd (m' s0) = Ok tt).
  Lemma t_bind : forall A (m m' : O A) (k k' : A -> O unit), same m m' -> (forall a, tails (k a) (k' a)) -> tails (obind m k) (obind m' k').
  Proof.
    intros A m m' k k' Hm Hk s s0 E. destruct (Hm s s0 E) as [E1 E2]. unfold obind. destruct (m s) as [s1 r], (m' s0) as [s1' r']. simpl in E1, E2. subst r'.
    destruct r; auto. apply Hk. auto.
  Qed.
  Lemma t_same : forall m m', same m m' -> tails m m'.
  Proof. intros m m' H s s0 E. left. apply H. auto. Qed.
  Lemma t_notify : forall ev n, tails (notify react self fuel ev n) (notify quiet self' fuel ev n).
  Proof.
    intros ev n s s0 E. right. exists ev, n, (fst s, snd s ++ [Heard ev n]). split; [reflexivity|]. unfold notify, obind, olog, quiet. destruct fuel; simpl; auto.
  Qed.
  Lemma t_add : forall a p, tails (add react self fuel a p) (add quiet self' fuel a p).
  Proof.
    intros a p. unfold add. apply t_bind; [apply s_at_addr|]. intros o. apply t_bind; [apply s_get|]. intros w. destruct (named w (o_id o)); [apply t_same; apply s_ret|].
    do 4 (apply t_bind; [apply s_mod|intros _]). apply t_bind; [apply s_get|]. intros w1. apply t_bind; [apply s_builds|]. intros b. apply t_bind.
    - repeat sstep; [apply s_create|apply s_remember].
    - intros b'. apply t_bind; [repeat sstep|]. intros _. apply t_notify.
  Qed.
  Lemma t_remove : forall k n, tails (remove react self fuel k n false) (remove quiet self' fuel k n false).
  Proof.
    intros k n. destruct k as [|k]; cbn [remove]; (apply t_bind; [apply s_get|]; intros w; destruct (negb (named w n)); [apply t_same; apply s_ret|];
      apply t_bind; [apply s_mod|]; intros _; apply t_bind; [apply s_at_name|]; intros a; apply t_bind; [apply s_cut_parents|]; intros _;
      apply t_bind; [apply s_at_addr|]; intros o; apply t_bind; [repeat sstep; apply s_cut_child|]; intros _; apply t_bind; [apply s_mod|]; intros _;
      apply t_bind; [apply s_at_name|]; intros _; apply t_bind; [apply s_mod|]; intros _; apply t_notify).
  Qed.
End Tail.

Section Play.
  Variable P : world -> call -> Prop.
  Variable react : listener.
  Hypothesis OB : obeys P react.
  Hypothesis AE : acts_at_ends P react.
  Let OA := proj1 AE.

  Definition follows (w : world) : Prop := exists s, played P quiet s /\ fst s = w.
  Lemma one_more : forall f c s, played P quiet s -> P (fst s) c -> follows (fst (fst (exec f quiet c s))).
  Proof.
    intros f c s H Pc. destruct (exec f quiet c s) as [s' r] eqn:X. exists (fst s', snd s' ++ [Made c r]). split; auto. eapply played_call; eauto.
  Qed.
  Lemma follows_listen : forall f, (forall c s, follows (fst s) -> P (fst s) c -> follows (fst (fst (exec f react c s)))) ->
    forall ev n k s, follows (fst s) -> follows (fst (fst (listen react (exec f react) ev n k s))).
  Proof.
    intros f IH ev n k. induction k as [|k IHk]; intros s F; cbn [listen]; destruct (react ev n (snd s) (fst s)) as [|e|c] eqn:R; auto.
    pose proof (IH c s F (OB _ _ _ _ _ R)) as F1. destruct (exec f react c s) as [s1 [u|e|]]; auto; apply IHk; auto.
  Qed.
  Lemma follows_exec : forall f c s, follows (fst s) -> P (fst s) c -> follows (fst (fst (exec f react c s))).
  Proof.
    intros f. induction f as [|f IH]; intros c s F Pc; cbn [exec]; auto. destruct F as (s0 & H & E).
    pose proof (one_more (S f) c s0 H) as M. rewrite E in M. specialize (M Pc). cbn [exec] in M.
    assert (SM : forall m m' : O unit, same m m' -> fst (fst (m s)) = fst (fst (m' s0))) by (intros m m' S; apply S; auto).
    destruct c; cbn [perform] in *.
    - rewrite (SM _ _ (s_mod _)). exact M.
    - destruct (t_add react (exec f react) (exec f quiet) f a parent s s0 (eq_sym E)) as [[X _]|(ev & n & s1 & X1 & X2 & _)]; [rewrite X; exact M|].
      rewrite X1. apply follows_listen; auto. rewrite X2. exact M.
    - destruct recursive.
      + destruct (proj2 AE) as [OD|NR]; [|exfalso; apply (NR _ _ Pc)]. rewrite (SM _ _ (s_remove react (exec f react) (exec f quiet) f OA OD _ _ _)). exact M.
      + destruct (t_remove react (exec f react) (exec f quiet) f OA f n s s0 (eq_sym E)) as [[X _]|(ev & n' & s1 & X1 & X2 & _)]; [rewrite X; exact M|].
        rewrite X1. apply follows_listen; auto. rewrite X2. exact M.
    - rewrite (SM _ _ (s_announce react (exec f react) (exec f quiet) f OA _)). exact M.
    - rewrite (SM _ _ (s_relate react (exec f react) (exec f quiet) f OA _ _)). exact M.
    - rewrite (SM _ _ (s_break react (exec f react) (exec f quiet) f OA _ _)). exact M.
    - rewrite (SM _ _ (s_add_parent react (exec f react) (exec f quiet) f OA _ _)). exact M.
    - rewrite (SM _ _ (s_set_parent react (exec f react) (exec f quiet) f OA _ _)). exact M.
    - rewrite (SM _ _ (s_remove_parent react (exec f react) (exec f quiet) f OA _ _)). exact M.
    - rewrite (SM _ _ (s_add_child react (exec f react) (exec f quiet) f OA _ _)). exact M.
    - rewrite (SM _ _ (s_parents_enabled react (exec f react) (exec f quiet) f OA _ _)). exact M.
    - rewrite (SM _ _ (s_children_enabled react (exec f react) (exec f quiet) f OA _ _)). exact M.
  Qed.
  Lemma one_by_one : forall s, played P react s -> follows (fst s).
  Proof.
    intros s H. induction H as [|s c fuel s' r H IH Pc E]; [exists (new_world, []); split; auto; constructor|].
    pose proof (follows_exec fuel c s IH Pc) as F. rewrite E in F. exact F.
  Qed.
End Play.

Lemma ends_sequential : forall P react, obeys P react -> acts_at_ends P react -> forall s, played P react s ->
  exists watch s', silent watch /\ played P watch s' /\ fst s' = fst s.
Proof.
  intros P react OB OA s H. destruct (one_by_one P react OB OA s H) as (s' & H' & E). exists quiet, s'. split; auto. intros ev n l w. auto.
Qed.

(** The same for calls that all end. *)
Section Ended.
  Variable P : world -> call -> Prop.
  Variable react : listener.
  Hypothesis OB : obeys P react.
  Hypothesis AE : acts_at_ends P react.
  Let OA := proj1 AE.

  Definition ends (w : world) : Prop := exists s, completed P quiet s /\ fst s = w.
  Lemma ends_listen : forall f, (forall c s s' r, ends (fst s) -> P (fst s) c -> exec f react c s = (s', r) -> r <> Diverge -> ends (fst s')) ->
    forall ev n k s s' r, ends (fst s) -> listen react (exec f react) ev n k s = (s', r) -> r <> Diverge -> ends (fst s').
  Proof.
    intros f IH ev n k. induction k as [|k IHk]; intros s s' r F L NR; cbn [listen] in L; destruct (react ev n (snd s) (fst s)) as [|e|c] eqn:R; try (inv L; auto; fail).
    destruct (exec f react c s) as [s1 [u|e|]] eqn:X; [| |inv L; congruence]; (eapply IHk; [|exact L|exact NR]; cbn [fst]; eapply IH; [exact F|eapply OB; eauto|exact X|discriminate]).
  Qed.
  Lemma ends_exec : forall f c s s' r, ends (fst s) -> P (fst s) c -> exec f react c s = (s', r) -> r <> Diverge -> ends (fst s').
  Proof.
    intros f. induction f as [|f IH]; intros c s s' r F Pc X NR; cbn [exec] in X; [inv X; congruence|]. destruct F as (s0 & H & E).
    assert (M : forall s1 r1, exec (S f) quiet c s0 = (s1, r1) -> r1 <> Diverge -> ends (fst s1)).
    { intros s1 r1 X1 N1. exists (fst s1, snd s1 ++ [Made c r1]). split; auto. eapply completed_call; eauto. rewrite E. auto. }
    cbn [exec] in M.
    assert (SM : forall m m' : O unit, same m m' -> m s = (s', r) -> (forall s1 r1, m' s0 = (s1, r1) -> r1 <> Diverge -> ends (fst s1)) -> ends (fst s')).
    { intros m m' S X0 M0. destruct (S s s0 (eq_sym E)) as [S1 S2]. rewrite X0 in S1, S2. simpl in S1, S2. destruct (m' s0) as [s1 r1] eqn:X1. simpl in S1, S2. subst r1. rewrite S1. eapply M0; eauto. }
    assert (TM : forall m m' : O unit, tails react (exec f react) f m m' -> m s = (s', r) -> (forall s1 r1, m' s0 = (s1, r1) -> r1 <> Diverge -> ends (fst s1)) -> ends (fst s')).
    { intros m m' T X0 M0. destruct (m' s0) as [s1 r1] eqn:X1. destruct (T s s0 (eq_sym E)) as [[S1 S2]|(ev & n & s2 & T1 & T2 & T3)].
      - rewrite X0, X1 in S1, S2. simpl in S1, S2. subst r1. rewrite S1. eapply M0; eauto.
      - rewrite X1 in T2, T3. simpl in T2, T3. subst r1. rewrite X0 in T1. symmetry in T1. eapply (ends_listen f IH); [|exact T1|exact NR]. rewrite T2. eapply M0; [reflexivity|discriminate]. }
    destruct c; cbn [perform] in *.
    - eapply SM; [apply s_mod|exact X|exact M].
    - eapply TM; [apply t_add|exact X|exact M].
    - destruct recursive.
      + destruct (proj2 AE) as [OD|ND]; [|exfalso; apply (ND _ _ Pc)]. eapply SM; [apply s_remove; auto|exact X|exact M].
      + eapply TM; [apply t_remove; auto|exact X|exact M].
    - eapply SM; [apply s_announce; auto|exact X|exact M].
    - eapply SM; [apply s_relate; auto|exact X|exact M].
    - eapply SM; [apply s_break; auto|exact X|exact M].
    - eapply SM; [apply s_add_parent; auto|exact X|exact M].
    - eapply SM; [apply s_set_parent; auto|exact X|exact M].
    - eapply SM; [apply s_remove_parent; auto|exact X|exact M].
    - eapply SM; [apply s_add_child; auto|exact X|exact M].
    - eapply SM; [apply s_parents_enabled; auto|exact X|exact M].
    - eapply SM; [apply s_children_enabled; auto|exact X|exact M].
  Qed.
  Lemma ended_follow : forall s, completed P react s -> ends (fst s).
  Proof.
    intros s H. induction H as [|s c fuel s' r H IH Pc E NR]; [exists (new_world, []); split; auto; constructor|]. cbn [fst]. eapply ends_exec; eauto.
  Qed.
End Ended.
