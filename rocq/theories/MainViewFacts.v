(** Proofs about the clients of the main view. *)
From Verif Require Import Base MainTree Spec BaseFacts MainFacts MainInv MainEvents MainThm Callbacks ApiFacts FrameFacts Gtk MainView SpecMainView.

Lemma called_register : forall {F} ev (f : F) r ev',
  called ev' (fst (register ev f r)) = if String.eqb ev ev' then called ev' r ++ [f] else called ev' r.
Proof.
  intros F ev f r ev'. unfold called. pose proof (handlers_dset (F := F)) as D. unfold register. simpl fst. rewrite D.
  destruct (String.eqb_spec ev ev') as [->|]; auto. rewrite map_app. auto.
Qed.

Lemma called_deregister : forall {F} ev k (r : registry F) ev' f,
  In f (called ev' (deregister ev k r)) -> In f (called ev' r).
Proof.
  intros F ev k r ev' f. unfold called. rewrite handlers_deregister. destruct (String.eqb ev ev'); auto.
  rewrite !in_map_iff. intros (x & E & H). exists x. split; auto. clear E. induction (handlers_of ev' r) as [|[k' g] h IH]; auto.
  simpl in H. destruct (Nat.eqb k k'); [right; auto|]. destruct H as [H|H]; [left; auto|right; auto].
Qed.

Lemma call_quiet : forall {S} (fs : list (fn S)), (forall f, In f fs -> quiet f) -> forall t n p s, call_each fs t n p s = (s, Ok tt).
Proof.
  induction fs as [|f fs IH]; intros H t n p s; simpl; auto. rewrite (H f (or_introl eq_refl)). apply IH. intros g Hg. apply H. right. auto.
Qed.
Lemma call_harmless : forall {S} (fs : list (fn S)), (forall f, In f fs -> harmless f) -> forall t n p s, fst (call_each fs t n p s) = s.
Proof.
  induction fs as [|f fs IH]; intros H t n p s; simpl; auto. pose proof (H f (or_introl eq_refl) t n p s) as E.
  destruct (f t n p s) as [s1 [[]|e|]]; cbn [fst] in *; subst; try reflexivity. apply IH. intros g Hg. apply H. right. exact Hg.
Qed.
Lemma call_app : forall {S} (fs gs : list (fn S)) t n p s, call_each (fs ++ gs) t n p s =
  match call_each fs t n p s with (s1, Ok _) => call_each gs t n p s1 | x => x end.
Proof.
  induction fs as [|f fs IH]; intros gs t n p s; simpl; auto. destruct (f t n p s) as [s1 [[]|e|]]; auto.
Qed.

(** The registry holds the functions of the client, behind quiet ones. *)
Definition attends (learn : bool) (r : registry (fn (list id))) : Prop := forall k, exists before more,
  called (main_signal k) r = before ++ keep learn k :: more /\
  (forall f, In f before -> quiet f) /\ (forall f, In f more -> harmless f).

Lemma listen_attends : forall learn r, all_quiet r -> attends learn (listen learn r).
Proof.
  intros learn r Q k. exists (called (main_signal k) r), []. split; [|split; [apply Q|intros f []]].
  unfold listen. rewrite !called_register. destruct k; reflexivity.
Qed.
Lemma attends_register : forall learn r ev f, attends learn r -> harmless f -> attends learn (fst (register ev f r)).
Proof.
  intros learn r ev f A Hf k. destruct (A k) as (b & m & E & Qb & Hm). rewrite called_register. destruct (String.eqb ev (main_signal k)).
  - exists b, (m ++ [f]). rewrite E, <- app_assoc. split; [auto|]. split; auto. intros g Hg. apply in_app_iff in Hg. destruct Hg as [Hg|[<-|[]]]; auto.
  - exists b, m. auto.
Qed.

Lemma attends_emit : forall learn r, attends learn r -> forall e s, fst (main_emit r e s) = fst (keep learn (ev_kind e) (ev_tree e) (ev_id e) None s).
Proof.
  intros learn r A e s. unfold main_emit. destruct (A (ev_kind e)) as (b & m & -> & Qb & Hm). rewrite call_app, (call_quiet b Qb).
  cbn [call_each keep]. cbn [fst]. apply call_harmless. auto.
Qed.

(** What the client keeps while it hears events that make sense. *)
Lemma told_emits : forall learn r, attends learn r -> forall ks es ks', told ks es ks' ->
  match main_emits r es ks with
  | (s, None) => s = ks'
  | (s, Some (t, _)) => s = get_all_nodes t /\ exists e, In e es /\ t = ev_tree e
  end.
Proof.
  intros learn r A. induction 1 as [ks|ks n s es ks' Hn Hs H IH|ks n s es ks' Hn Hs H IH|ks n s es ks' Hn Hs H IH]; simpl; auto.
  - pose proof (attends_emit _ _ A (Ev EAdded n s) ks) as E. cbn in E. destruct (main_emit r (Ev EAdded n s) ks) as [s1 x]. cbn in E. subst s1.
    assert (K : ks ++ [n] = get_all_nodes s /\ exists e, In e (Ev EAdded n s :: es) /\ s = ev_tree e) by (split; auto; eexists; split; [left; reflexivity|auto]).
    destruct x as [[]|e|]; auto. destruct (main_emits r es (ks ++ [n])) as [s2 [[t2 x2]|]]; auto.
    destruct IH as (IH & e & He & ->). split; auto. exists e. split; [right|]; auto.
  - pose proof (attends_emit _ _ A (Ev EModified n s) ks) as E. cbn in E.
    assert (E' : fst (main_emit r (Ev EModified n s) ks) = ks). { rewrite E. destruct learn; auto. destruct (in_dec string_dec n ks); tauto. }
    clear E. destruct (main_emit r (Ev EModified n s) ks) as [s1 x]. cbn in E'. subst s1.
    assert (K : ks = get_all_nodes s /\ exists e, In e (Ev EModified n s :: es) /\ s = ev_tree e) by (split; auto; eexists; split; [left; reflexivity|auto]).
    destruct x as [[]|e|]; auto. destruct (main_emits r es ks) as [s2 [[t2 x2]|]]; auto.
    destruct IH as (IH & e & He & ->). split; auto. exists e. split; [right|]; auto.
  - pose proof (attends_emit _ _ A (Ev EDeleted n s) ks) as E. cbn in E. destruct (main_emit r (Ev EDeleted n s) ks) as [s1 x]. cbn in E. subst s1.
    assert (K : remove1 n ks = get_all_nodes s /\ exists e, In e (Ev EDeleted n s :: es) /\ s = ev_tree e) by (split; auto; eexists; split; [left; reflexivity|auto]).
    destruct x as [[]|e|]; auto. destruct (main_emits r es (remove1 n ks)) as [s2 [[t2 x2]|]]; auto.
    destruct IH as (IH & e & He & ->). split; auto. exists e. split; [right|]; auto.
Qed.

(** Learning from nothing. *)
Lemma learn_emits : forall r, all_quiet r -> forall t ns ks, NoDup (ks ++ ns) ->
  main_emits (listen true r) (map (fun n => Ev EModified n t) ns) ks = (ks ++ ns, None).
Proof.
  intros r Q t. induction ns as [|n ns IH]; intros ks N; simpl; [rewrite app_nil_r; auto|].
  unfold main_emit. cbn [ev_kind ev_tree ev_id main_signal].
  assert (E : called "node-modified" (listen true r) = called "node-modified" r ++ [keep true EModified]).
  { unfold listen. rewrite !called_register. reflexivity. }
  rewrite E, call_app, (call_quiet _ (Q "node-modified")). cbn [call_each keep].
  destruct (in_dec string_dec n ks) as [H|H].
  - exfalso. apply NoDup_remove_2 in N. apply N. apply in_app_iff. auto.
  - rewrite IH; rewrite <- app_assoc; auto.
Qed.

Lemma filter_all : forall (p : id -> bool) l, (forall x, In x l -> p x = true) -> filter p l = l.
Proof. induction l as [|x l IH]; intros H; simpl; auto. rewrite (H x (or_introl eq_refl)). f_equal. apply IH. intros y Hy. apply H. right. auto. Qed.

Lemma late_state : forall t r, reachx any_fresh t -> all_quiet r -> ~ In main_root (get_all_nodes t) ->
  main_current_state (t, listen true r, []) = ((t, listen true r, get_all_nodes t), Ok tt).
Proof.
  intros t r R Q H. unfold main_current_state, main_call. rewrite refresh_exact. rewrite filter_all.
  - rewrite learn_emits; auto. simpl. apply (ok_keys _ (g_ok _ _ _ (reachx_good _ R))).
  - intros x Hx. apply negb_true_iff. apply String.eqb_neq. intros ->. auto.
Qed.

Lemma following_inv : forall st, following st -> let '(t, r, s) := st in
  reachx any_fresh t /\ s = get_all_nodes t /\ exists learn, attends learn r.
Proof.
  induction 1 as [learn t r R Q|t r R Q H|t r s ev f F (R & E & learn & A) Hf|t r s o F (R & E & learn & A) Hf Ho].
  - split; auto. split; auto. exists learn. apply listen_attends. auto.
  - rewrite late_state by auto. cbn [fst]. split; auto. split; auto. exists true. apply listen_attends. auto.
  - split; auto. split; auto. exists learn. apply attends_register; auto.
  - unfold main_call. pose proof (events_tell t R o Hf Ho) as T. pose proof (reachx_call any_fresh t o R Hf) as R1.
    pose proof (fun e => reachx_abort any_fresh t o e R Hf) as R2. unfold after, events in *.
    destruct (run_op o t) as [[t1 es] x]. cbn [fst snd] in *. rewrite <- E in T. pose proof (told_emits learn r A _ _ _ T) as W.
    destruct (main_emits r es s) as [s1 [[t2 x2]|]]; cbn [fst].
    + destruct W as (W & e & He & ->). split; [apply R2; auto|]. split; auto. exists learn. auto.
    + split; auto. split; auto. exists learn. auto.
Qed.

Lemma follower_knows : forall t r s, following (t, r, s) -> s = get_all_nodes t.
Proof. intros t r s F. apply (following_inv _ F). Qed.

(** The widget. *)
Definition deaf (r : registry (fn gtk)) : Prop := forall k f, In f (called (main_signal k) r) -> harmless f.

Lemma deaf_emits : forall r, deaf r -> forall es g, fst (main_emits r es g) = g.
Proof.
  intros r D. induction es as [|e es IH]; intros g; simpl; auto.
  pose proof (call_harmless _ (D (ev_kind e)) (ev_tree e) (ev_id e) None g) as E. fold (main_emit r e g) in E.
  destruct (main_emit r e g) as [g1 [[]|x|]]; cbn [fst] in *; subst; auto.
Qed.
Lemma deaf_call : forall o t r g, deaf r -> exists t', fst (main_call o (t, r, g)) = (t', r, g).
Proof.
  intros o t r g D. unfold main_call. destruct (run_op o t) as [[t1 es] x]. pose proof (deaf_emits r D es g) as E.
  destruct (main_emits r es g) as [g1 [[t2 x2]|]]; cbn [fst] in *; subst; eauto.
Qed.
Lemma deaf_connect : forall pf r, deaf r -> deaf (connect_functions pf r).
Proof. intros pf r D k f. unfold connect_functions. rewrite !called_register. destruct k; apply D. Qed.

Lemma widget_inv : forall pf st, widget_of_main pf st -> let '(t, r, g) := st in deaf r /\ g = new_gtk.
Proof.
  intros pf. induction 1 as [t|[[t r] g] W [D E]|t r g ev f W [D E] Hf|t r g ev k W [D E]|[[t r] g] o W [D E]].
  - split; auto. intros k f [].
  - unfold connect_model, main_current_state. destruct (deaf_call RefreshAll t _ g (deaf_connect pf r D)) as (t' & ->).
    split; auto. apply deaf_connect; auto.
  - split; auto. intros k f'. rewrite called_register. destruct (String.eqb ev (main_signal k)); [|apply D].
    intros H. apply in_app_iff in H. destruct H as [H|[<-|[]]]; auto. apply (D k); auto.
  - split; auto. intros k' f H. apply called_deregister in H. apply (D k'); auto.
  - destruct (deaf_call o t r g D) as (t' & ->). auto.
Qed.
Lemma widget_empty : forall pf t r g, widget_of_main pf (t, r, g) -> g = new_gtk.
Proof. intros pf t r g W. apply (widget_inv _ _ W). Qed.
