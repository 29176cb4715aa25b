(** Views with clients that raise: until one does, everything is as before. *)
From Verif Require Import Base BaseFacts MainTree Filters FTree FEmit SpecView SpecViewing FtBase.
Open Scope f_scope.

Section Shadow.
  Variable bad : upset.

  (** The signals up to the first one that makes a client raise. *)
  Fixpoint cut (k : nat) (l : list sig) : option (list sig * exn) :=
    match l with
    | [] => None
    | x :: rest =>
        match bad k x with
        | Some e => Some ([x], e)
        | None => match cut (S k) rest with Some (l1, e) => Some (x :: l1, e) | None => None end
        end
    end.
  Lemma cut_app : forall l l' k, cut k (l ++ l') = match cut k l with Some z => Some z | None => match cut (k + length l) l' with Some (l1, e) => Some (l ++ l1, e) | None => None end end.
  Proof.
    induction l as [|x l IH]; intros l' k; cbn [app cut length]; [rewrite Nat.add_0_r; destruct (cut k l') as [[]|]; auto|].
    destruct (bad k x); auto. rewrite IH. rewrite Nat.add_succ_r. cbn [plus]. destruct (cut (S k) l) as [[]|]; auto. destruct (cut (S (k + length l)) l') as [[]|]; auto.
  Qed.

  Definition shadow {A} (m m' : FM A) : Prop := forall s, exists l, sent (fst (m' s)) = sent s ++ l /\
    match cut (length (sent s)) l with
    | None => m s = m' s
    | Some (l1, e) => exists s1, m s = (s1, Err e) /\ sent s1 = sent s ++ l1
    end.

  Definition mute {A} (m : FM A) : Prop := forall s, sent (fst (m s)) = sent s.
  Lemma shadow_mute : forall A (m : FM A), mute m -> shadow m m.
  Proof. intros A m H s. exists []. rewrite app_nil_r. split; [apply H|reflexivity]. Qed.
  Lemma shadow_ret : forall A (a : A), shadow (fret a) (fret a).
  Proof. intros. apply shadow_mute. intros s. auto. Qed.
  Lemma shadow_bind : forall A B (m m' : FM A) (k k' : A -> FM B), shadow m m' -> (forall a, shadow (k a) (k' a)) -> shadow (fbind m k) (fbind m' k').
  Proof.
    intros A B m m' k k' H1 H2 s. destruct (H1 s) as (l & E & C). unfold fbind. destruct (m' s) as [s1 r] eqn:Em. cbn [fst] in E. destruct r as [a|e|].
    - destruct (H2 a s1) as (l' & E' & C'). exists (l ++ l'). rewrite E', E, app_assoc. split; auto. rewrite cut_app.
      destruct (cut (length (sent s)) l) as [[l1 e]|]; [destruct C as (z & -> & Ez); exists z; auto|]. rewrite C.
      rewrite E, app_length in C'. destruct (cut (length (sent s) + length l) l') as [[l1 e]|]; auto.
      destruct C' as (z & Ez & Es). exists z. rewrite Ez, Es, app_assoc. auto.
    - exists l. split; auto. destruct (cut (length (sent s)) l) as [[l1 e1]|]; [destruct C as (z & -> & Ez); exists z; auto|]. rewrite C. auto.
    - exists l. split; auto. destruct (cut (length (sent s)) l) as [[l1 e1]|]; [destruct C as (z & -> & Ez); exists z; auto|]. rewrite C. auto.
  Qed.
  Lemma shadow_for : forall X (l : list X) (k k' : X -> FM unit), (forall x, shadow (k x) (k' x)) -> shadow (ffor l k) (ffor l k').
  Proof. intros X l k k' H. induction l as [|x l IH]; cbn [ffor]; [apply shadow_ret|apply shadow_bind; auto]. Qed.
  Lemma shadow_set : forall ord l (k k' : id -> FM unit), (forall x, shadow (k x) (k' x)) -> shadow (iterate_set ord l k) (iterate_set ord l k').
  Proof. intros ord l k k' H s. unfold iterate_set. apply (shadow_for _ (ord (tick s) l) k k' H (bump s)). Qed.
  Lemma shadow_ext : forall A (m m1 m' m1' : FM A), shadow m m' -> (forall s, m1 s = m s) -> (forall s, m1' s = m' s) -> shadow m1 m1'.
  Proof. intros A m m1 m' m1' H H1 H2 s. rewrite H1, H2. apply H. Qed.
  Lemma shadow_at : forall A (m m1 m' m1' : FM A) s, shadow m m' -> m1 s = m s -> m1' s = m' s -> exists l, sent (fst (m1' s)) = sent s ++ l /\
    match cut (length (sent s)) l with None => m1 s = m1' s | Some (l1, e) => exists s1, m1 s = (s1, Err e) /\ sent s1 = sent s ++ l1 end.
  Proof. intros A m m1 m' m1' s H H1 H2. rewrite H1, H2. apply H. Qed.
  Lemma shadow_get : forall A (k k' : ft -> FM A), (forall s, shadow (k s) (k' s)) -> shadow (fbind fget k) (fbind fget k').
  Proof. intros. apply shadow_bind; auto. apply shadow_mute. intros s. auto. Qed.

  Lemma shadow_send : forall x, shadow (e_send bad x) (fmodify (send x)).
  Proof.
    intros x s. exists [x]. split; auto. cbn [cut]. unfold e_send, fmodify. destruct (bad (length (sent s)) x); [eexists; split; [reflexivity|reflexivity]|auto].
  Qed.

  Lemma mute_node : forall n, mute (fnode_at n).
  Proof. intros n s. unfold fnode_at. destruct (dget n (fnodes s)); auto. Qed.
  Lemma mute_upd : forall n f, mute (upd_f n f).
  Proof. intros n f s. unfold upd_f. destruct (dget n (fnodes s)); auto. Qed.
  Lemma mute_bind : forall A B (m : FM A) (k : A -> FM B), mute m -> (forall a, mute (k a)) -> mute (fbind m k).
  Proof. intros A B m k H1 H2 s. unfold fbind. specialize (H1 s). destruct (m s) as [s1 [a|e|]]; auto. cbn [fst] in H1. rewrite (H2 a s1). auto. Qed.
  Lemma mute_raise : forall A e, mute (@fraise A e).
  Proof. intros A e s. auto. Qed.
  Lemma mute_children : forall p n, mute (children_remove p n).
  Proof. intros p n. apply mute_bind; [apply mute_node|]. intros e. destruct (mem n (fchi e)); [apply mute_upd|apply mute_raise]. Qed.
  Lemma mute_parents : forall p n, mute (parents_remove p n).
  Proof. intros p n. apply mute_bind; [apply mute_node|]. intros e. destruct (mem n (fpar e)); [apply mute_upd|apply mute_raise]. Qed.
  Lemma mute_paths : forall n, mute (paths_of n).
  Proof. intros n s. auto. Qed.
  Lemma mute_nodes : forall f, mute (fmodify (fun s => set_fnodes (f s) s)).
  Proof. intros f s. auto. Qed.

  (** The actions. *)
  Lemma fold_runs : forall n acts s, fold_left (fun s a => send (SRun n a) s) acts s =
    mkFT (froot s) (fnodes s) (flat s) (filters s) (runonce s) (sent s ++ map (SRun n) acts) (tick s).
  Proof.
    intros n acts. induction acts as [|a acts IH]; intros s; cbn [fold_left map]; [rewrite app_nil_r; destruct s; auto|].
    rewrite IH. cbn. rewrite <- app_assoc. auto.
  Qed.
  Lemma for_runs : forall n acts s, ffor acts (fun a => fmodify (send (SRun n a))) s = (fold_left (fun s a => send (SRun n a) s) acts s, Ok tt).
  Proof. intros n acts. induction acts as [|a acts IH]; intros s; cbn [ffor fold_left]; auto. unfold fbind, fmodify at 1. apply IH. Qed.
  Definition plain_added (n : id) (path : list id) (acts : list nat) : FM unit :=
    match acts with
    | [] => fret tt
    | a :: rest => fmodify (send (SRun n a)) ;; fmodify (fun s => set_runonce (ddel n (runonce s)) s) ;; ffor rest (fun a => fmodify (send (SRun n a)))
    end ;; fmodify (send (SAdded n path)).
  Lemma plain_same : forall n path a acts s, plain_added n path (a :: acts) s =
    (send (SAdded n path) (let s1 := fold_left (fun s a => send (SRun n a) s) (a :: acts) s in set_runonce (ddel n (runonce s1)) s1), Ok tt).
  Proof.
    intros n path a acts s. unfold plain_added. unfold fbind at 1. unfold fbind at 1. unfold fmodify at 1. unfold fbind at 1. unfold fmodify at 1. rewrite for_runs. unfold fmodify.
    cbv zeta. rewrite !fold_runs. cbn. rewrite <- app_assoc. auto.
  Qed.
  Lemma shadow_actions : forall n path acts, shadow (e_actions bad n acts ;; e_send bad (SAdded n path)) (plain_added n path acts).
  Proof.
    intros n path acts. unfold plain_added. apply shadow_bind; [|intros; apply shadow_send]. destruct acts as [|a acts]; [apply shadow_ret|].
    cbn [e_actions]. apply shadow_bind; [apply shadow_send|]. intros _. apply shadow_bind; [apply shadow_mute; intros s; auto|]. intros _. apply shadow_for. intros x. apply shadow_send.
  Qed.
  Lemma shadow_added : forall n path, shadow (e_added bad n path) (callback_added n path).
  Proof.
    intros n path s. destruct (mem n reserved) eqn:R.
    { apply (shadow_at _ (fraise TypeError) _ (fraise TypeError)); [apply shadow_mute, mute_raise| |]; unfold e_added, callback_added; rewrite R; auto. }
    destruct (dget n (runonce s)) as [[|a acts]|] eqn:E.
    - apply (shadow_at _ (e_send bad (SAdded n path)) _ (fmodify (send (SAdded n path)))); [apply shadow_send| |]; unfold e_added, callback_added; rewrite R, E; auto.
    - destruct (is_displayed s n) eqn:Di.
      + apply (shadow_at _ (e_actions bad n (a :: acts) ;; e_send bad (SAdded n path)) _ (plain_added n path (a :: acts))); [apply shadow_actions| |].
        * unfold e_added. rewrite R, E, Di. auto.
        * unfold callback_added. rewrite R, E, Di, plain_same. auto.
      + apply (shadow_at _ (fraise PyException) _ (fraise PyException)); [apply shadow_mute, mute_raise| |]; unfold e_added, callback_added; rewrite R, E, Di; auto.
    - apply (shadow_at _ (e_send bad (SAdded n path)) _ (fmodify (send (SAdded n path)))); [apply shadow_send| |]; unfold e_added, callback_added; rewrite R, E; auto.
  Qed.

  (** Loops. *)
  Definition shadows {Q} (f f' : Q * ft -> ctl (Q * ft) (ft * res unit)) : Prop := forall q s, exists l,
    match f' (q, s) with Go (_, s') => sent s' = sent s ++ l | Stop (s', _) => sent s' = sent s ++ l end /\
    match cut (length (sent s)) l with
    | None => f (q, s) = f' (q, s)
    | Some (l1, e) => exists s1, f (q, s) = Stop (s1, Err e) /\ sent s1 = sent s ++ l1
    end.
  Lemma shadows_loop : forall Q (f f' : Q * ft -> ctl (Q * ft) (ft * res unit)) k, shadows f f' -> shadows (loop k f) (loop k f').
  Proof.
    intros Q f f' k H. induction k as [|k IH]; intros q s; cbn [loop]; [apply H|]. destruct (IH q s) as (l & E & C).
    destruct (loop k f' (q, s)) as [[q1 s1]|[s1 r]].
    - destruct (IH q1 s1) as (l' & E' & C'). exists (l ++ l'). rewrite E, <- app_assoc in E'. split; auto. rewrite cut_app.
      destruct (cut (length (sent s)) l) as [[l1 e]|]; [destruct C as (z & -> & Ez); exists z; auto|]. rewrite C.
      rewrite E, app_length in C'. destruct (cut (length (sent s) + length l) l') as [[l1 e]|]; auto.
      destruct C' as (z & Ez & Es). exists z. rewrite Ez, Es, app_assoc. auto.
    - exists l. split; auto. destruct (cut (length (sent s)) l) as [[l1 e]|]; [destruct C as (z & -> & Ez); exists z; auto|]. rewrite C. auto.
  Qed.
  Lemma shadow_loop : forall Q (f f' : Q * ft -> ctl (Q * ft) (ft * res unit)) (k : ft -> nat) (q : ft -> Q), shadows f f' ->
    shadow (fun s => match loop (k s) f (q s, s) with Stop r => r | Go (_, s') => (s', Diverge) end)
           (fun s => match loop (k s) f' (q s, s) with Stop r => r | Go (_, s') => (s', Diverge) end).
  Proof.
    intros Q f f' k q H s. destruct (shadows_loop Q f f' (k s) H (q s) s) as (l & E & C). exists l.
    split; [destruct (loop (k s) f' (q s, s)) as [[q1 s1]|[s1 r]]; auto|].
    destruct (cut (length (sent s)) l) as [[l1 e]|]; [destruct C as (z & -> & Ez); exists z; auto|]. rewrite C. auto.
  Qed.
  (** A step that runs [m], and goes on in a way that sends nothing. *)
  Lemma shadows_step : forall Q (m m' : Q -> FM unit) (next : Q -> ft -> ctl (Q * ft) (ft * res unit)),
    (forall q, shadow (m q) (m' q)) -> (forall q s, match next q s with Go (_, s') => sent s' = sent s | Stop (s', _) => sent s' = sent s end) ->
    shadows (fun x => match m (fst x) (snd x) with (s1, Ok _) => next (fst x) s1 | (s1, r) => Stop (s1, r) end)
            (fun x => match m' (fst x) (snd x) with (s1, Ok _) => next (fst x) s1 | (s1, r) => Stop (s1, r) end).
  Proof.
    intros Q m m' next H HN q s. cbn [fst snd]. destruct (H q s) as (l & E & C). exists l. destruct (m' q s) as [s1 r]. cbn [fst] in E.
    split.
    - destruct r as [[]|e|]; auto. specialize (HN q s1). destruct (next q s1) as [[q1 s2]|[s2 r2]]; congruence.
    - destruct (cut (length (sent s)) l) as [[l1 e]|]; [destruct C as (z & -> & Ez); exists z; auto|]. rewrite C. auto.
  Qed.
  Lemma shadows_ext : forall Q (f f1 f' f1' : Q * ft -> ctl (Q * ft) (ft * res unit)), shadows f f' -> (forall x, f1 x = f x) -> (forall x, f1' x = f' x) -> shadows f1 f1'.
  Proof. intros Q f f1 f' f1' H H1 H2 q s. rewrite H1, H2. apply H. Qed.

  Lemma shadow_add : forall paths, shadows (e_add_step bad paths) (add_step paths).
  Proof.
    intros paths.
    pose (next := fun (q : list (id * list id)) s1 => match q with
      | [] => Stop (s1, Ok tt)
      | (n, rel) :: rest => match dget n (fnodes s1) with
        | None => Stop (s1, Err KeyError)
        | Some e => Go (rest ++ map (fun c => (c, rel ++ [c])) (fchi e), s1) end end : ctl (list (id * list id) * ft) (ft * res unit)).
    eapply shadows_ext; [apply (shadows_step _ (fun q => match q with [] => fret tt | (n, rel) :: _ => ffor paths (fun start => e_added bad n (start ++ rel)) end)
      (fun q => match q with [] => fret tt | (n, rel) :: _ => ffor paths (fun start => callback_added n (start ++ rel)) end) next)| |].
    - intros [|[n rel] rest]; [apply shadow_ret|]. apply shadow_for. intros. apply shadow_added.
    - intros [|[n rel] rest] s; cbn [next]; auto. destruct (dget n (fnodes s)); auto.
    - intros [[|[n rel] rest] s]; auto.
    - intros [[|[n rel] rest] s]; auto.
  Qed.
  Lemma shadow_remove : forall paths, shadows (e_remove_step bad paths) (remove_step paths).
  Proof.
    intros paths.
    pose (next := fun (q : list (id * list id * bool)) s1 => match q with
      | [] => Stop (s1, Ok tt)
      | (n, rel, true) :: rest => match dget n (fnodes s1) with
        | None => Stop (s1, Err KeyError)
        | Some e => Go (rev (map (fun c => (c, rel ++ [c], true)) (fchi e)) ++ (n, rel, false) :: rest, s1) end
      | (n, rel, false) :: rest => Go (rest, s1) end : ctl (list (id * list id * bool) * ft) (ft * res unit)).
    eapply shadows_ext; [apply (shadows_step _ (fun q => match q with (n, rel, false) :: _ => ffor paths (fun start => e_deleted bad n (start ++ rel)) | _ => fret tt end)
      (fun q => match q with (n, rel, false) :: _ => ffor paths (fun start => callback_deleted n (start ++ rel)) | _ => fret tt end) next)| |].
    - intros [|[[n rel] []] rest]; try apply shadow_ret. apply shadow_for. intros. apply shadow_send.
    - intros [|[[n rel] []] rest] s; cbn [next]; auto. destruct (dget n (fnodes s)); auto.
    - intros [[|[[n rel] []] rest] s]; auto.
    - intros [[|[[n rel] []] rest] s]; auto.
  Qed.

  Lemma shadow_add_tree : forall n p, shadow (e_add_tree bad n p) (send_add_tree n p).
  Proof.
    intros n p. unfold e_add_tree, send_add_tree. apply shadow_bind; [apply shadow_mute, mute_paths|]. intros paths.
    apply (shadow_loop _ _ _ (fun s => walk_budget (length (fnodes s))) (fun _ => [(n, [n])])). apply shadow_add.
  Qed.
  Lemma shadow_remove_tree : forall n p, shadow (e_remove_tree bad n p) (send_remove_tree n p).
  Proof.
    intros n p. unfold e_remove_tree, send_remove_tree. apply shadow_bind; [apply shadow_mute, mute_paths|]. intros paths.
    apply (shadow_loop _ _ _ (fun s => S (walk_budget (length (fnodes s)))) (fun _ => [(n, [n], true)])). apply shadow_remove.
  Qed.

  Section Update.
    Variable ord : nat -> list id -> list id.
    Variable T : mtree.
    Variable D : id -> bool.

    Ltac sh HR := lazymatch goal with
      | |- shadow (fret _) _ => apply shadow_ret
      | |- shadow (fbind fget _) _ => apply shadow_get; intros
      | |- shadow (fbind _ _) _ => apply shadow_bind; [|intros]
      | |- shadow (ffor _ _) _ => apply shadow_for; intros
      | |- shadow (iterate_set _ _ _) _ => apply shadow_set; intros
      | |- shadow (e_add_tree _ _ _) _ => apply shadow_add_tree
      | |- shadow (e_remove_tree _ _ _) _ => apply shadow_remove_tree
      | |- shadow (e_modified _ _ _) _ => apply shadow_send
      | |- shadow (e_deleted _ _ _) _ => apply shadow_send
      | |- shadow (fnode_at _) _ => apply shadow_mute, mute_node
      | |- shadow (upd_f _ _) _ => apply shadow_mute, mute_upd
      | |- shadow (children_remove _ _) _ => apply shadow_mute, mute_children
      | |- shadow (parents_remove _ _) _ => apply shadow_mute, mute_parents
      | |- shadow (paths_of _) _ => apply shadow_mute, mute_paths
      | |- shadow (fraise _) _ => apply shadow_mute, mute_raise
      | |- shadow (fmodify _) _ => apply shadow_mute, mute_nodes
      | |- shadow (if ?b then _ else _) _ => destruct b
      | |- shadow (let _ := _ in _) _ => cbv zeta
      | |- _ => apply HR end.

    Section Rec.
      Variable rec rec' : id -> direction -> FM unit.
      Hypothesis HR : forall n d, shadow (rec n d) (rec' n d).

      Lemma shadow_shown : forall n dir added, shadow (e_shown bad ord T D rec n dir added) (update_shown ord T D rec' n dir added).
      Proof. intros n dir added. unfold e_shown, update_shown, e_place. repeat sh HR. Qed.
      Lemma shadow_hidden : forall n, shadow (e_hidden bad T rec n) (update_hidden T rec' n).
      Proof. intros n. unfold e_hidden, update_hidden. repeat sh HR. Qed.
      Lemma shadow_body : forall n dir, shadow (e_body bad ord T D rec n dir) (update_body ord T D rec' n dir).
      Proof.
        intros n dir. unfold e_body, update_body. apply shadow_get. intros s. destruct (String.eqb n (froot s)); [apply shadow_ret|]. cbv zeta.
        destruct (is_displayed s n), (D n).
        - apply shadow_shown.
        - apply shadow_hidden.
        - apply shadow_bind; [apply shadow_mute, mute_nodes|]. intros _. apply shadow_shown.
        - repeat sh HR.
      Qed.
    End Rec.

    Lemma shadow_update : forall fuel n dir, shadow (e_update bad ord T D fuel n dir) (update_node ord T D fuel n dir).
    Proof. induction fuel as [|f IH]; intros n dir; [apply shadow_mute; intros s; auto|]. cbn [e_update update_node]. apply shadow_body. auto. Qed.

    Lemma shadow_rebuild : shadow (e_rebuild bad ord T D) (rebuild ord T D).
    Proof.
      unfold e_rebuild, rebuild. apply shadow_get. intros s. apply shadow_bind; [apply shadow_mute, mute_node|]. intros e.
      apply shadow_bind; [apply shadow_for; intros; apply shadow_remove_tree|]. intros _. apply shadow_bind; [apply shadow_mute, mute_nodes|]. intros _.
      apply (shadow_loop _ _ _ (fun _ => walk_budget (length (nodes T))) (fun _ => root_children T)).
      pose (next := fun (q : list id) s1 => match q with
        | [] => Stop (s1, Ok tt)
        | n :: rest => match dget n (nodes T) with
          | None => if String.eqb n main_root then Go (rest ++ root_children T, s1) else Stop (s1, Err ValueError)
          | Some _ => Go (rest ++ get_children T n, s1) end end : ctl (list id * ft) (ft * res unit)).
      eapply shadows_ext; [apply (shadows_step _ (fun q s1 => match q with [] => (s1, Ok tt) | n :: _ => e_update bad ord T D (update_budget T s1) n Both s1 end)
        (fun q s1 => match q with [] => (s1, Ok tt) | n :: _ => update ord T D n Both s1 end) next)| |].
      - intros [|n rest]; [apply shadow_ret|]. intros s1. unfold update. apply shadow_update.
      - intros [|n rest] s1; cbn [next]; auto. destruct (dget n (nodes T)); auto. destruct (String.eqb n main_root); auto.
      - intros [[|n rest] s1]; auto.
      - intros [[|n rest] s1]; auto.
    Qed.
  End Update.

  Section Calls.
    Variable ord : nat -> list id -> list id.
    Variable b : bank.

    Lemma shadow_modify : forall t n, shadow (e_modify bad ord b t n) (external_modify ord b t n).
    Proof. intros t n s. unfold e_modify, external_modify, update. apply shadow_update. Qed.
    Lemma shadow_refilter : forall t, shadow (e_refilter bad ord b t) (refilter ord b t).
    Proof. intros t s. unfold e_refilter, refilter. apply (shadow_rebuild ord t (shown b t s) (set_flat (any_flat b (filters s)) s)). Qed.

    Lemma feed_as : forall es last s, exists t1, e_feed bad ord b es last s = (t1, fst (ffor es (fun e => e_modify bad ord b (ev_tree e) (ev_id e)) s), snd (ffor es (fun e => e_modify bad ord b (ev_tree e) (ev_id e)) s)) /\
      (snd (ffor es (fun e => e_modify bad ord b (ev_tree e) (ev_id e)) s) = Ok tt -> t1 = last).
    Proof.
      induction es as [|e es IH]; intros last s; cbn [e_feed ffor]; [exists last; auto|]. unfold fbind at 1 2 3.
      destruct (e_modify bad ord b (ev_tree e) (ev_id e) s) as [s1 [[]|x|]]; [apply IH| |]; exists (ev_tree e); (split; [auto|discriminate]).
    Qed.
    Lemma shadow_feed : forall es, shadow (ffor es (fun e => e_modify bad ord b (ev_tree e) (ev_id e))) (feed ord b es).
    Proof. intros es. apply shadow_for. intros. apply shadow_modify. Qed.
  End Calls.
End Shadow.
