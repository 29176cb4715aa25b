(** Views: outcomes of computations, what clients know, paths and tree walks. *)
From Verif Require Import Base BaseFacts MainTree MainFacts MainPaths Filters FTree SpecView.
Open Scope f_scope.

(** ** Computations that end without exception *)
Definition fwp {A} (m : FM A) (Q : A -> ft -> Prop) (s : ft) : Prop :=
  match m s with (s', Ok a) => Q a s' | _ => False end.

Lemma fwp_ret : forall A (a : A) (Q : A -> ft -> Prop) s, Q a s -> fwp (fret a) Q s.
Proof. auto. Qed.
Lemma fwp_get : forall (Q : ft -> ft -> Prop) s, Q s s -> fwp fget Q s.
Proof. auto. Qed.
Lemma fwp_modify : forall f (Q : unit -> ft -> Prop) s, Q tt (f s) -> fwp (fmodify f) Q s.
Proof. auto. Qed.
Lemma fwp_bind : forall A B (m : FM A) (k : A -> FM B) (Q : B -> ft -> Prop) s,
  fwp m (fun a s' => fwp (k a) Q s') s -> fwp (fbind m k) Q s.
Proof. unfold fwp, fbind. intros A B m k Q s H. destruct (m s) as [s' [a| |]]; auto. Qed.
Lemma fwp_mono : forall A (m : FM A) (Q R : A -> ft -> Prop) s, fwp m Q s -> (forall a s', Q a s' -> R a s') -> fwp m R s.
Proof. unfold fwp. intros A m Q R s H HR. destruct (m s) as [s' [a| |]]; auto. Qed.
Lemma fwp_and : forall A (m : FM A) (Q R : A -> ft -> Prop) s, fwp m Q s -> fwp m R s -> fwp m (fun a s' => Q a s' /\ R a s') s.
Proof. unfold fwp. intros A m Q R s H H'. destruct (m s) as [s' [a| |]]; auto. Qed.
Lemma fwp_run : forall A (m : FM A) (Q : A -> ft -> Prop) s s' a, m s = (s', Ok a) -> Q a s' -> fwp m Q s.
Proof. intros A m Q s s' a E H. unfold fwp. rewrite E. auto. Qed.
Lemma fwp_elim : forall A (m : FM A) (Q : A -> ft -> Prop) s, fwp m Q s -> exists s' a, m s = (s', Ok a) /\ Q a s'.
Proof. unfold fwp. intros A m Q s H. destruct (m s) as [s' [a| |]]; try tauto. eauto. Qed.
Lemma fwp_node : forall n e (Q : fnode -> ft -> Prop) s, dget n (fnodes s) = Some e -> Q e s -> fwp (fnode_at n) Q s.
Proof. intros n e Q s H HQ. unfold fwp, fnode_at. rewrite H. auto. Qed.
Lemma fwp_upd : forall n e f (Q : unit -> ft -> Prop) s, dget n (fnodes s) = Some e ->
  Q tt (set_fnodes (dset n (f e) (fnodes s)) s) -> fwp (upd_f n f) Q s.
Proof. intros n e f Q s H HQ. unfold fwp, upd_f. rewrite H. auto. Qed.

(** A loop: [I done s] after the elements [done]. *)
Lemma fwp_for : forall X (I : list X -> ft -> Prop) (l : list X) body s,
  I [] s ->
  (forall done x rest s, l = done ++ x :: rest -> I done s -> fwp (body x) (fun _ s' => I (done ++ [x]) s') s) ->
  fwp (ffor l body) (fun _ s' => I l s') s.
Proof.
  intros X I l body s0. assert (G : forall rest done s, l = done ++ rest -> I done s ->
    (forall done x rest s, l = done ++ x :: rest -> I done s -> fwp (body x) (fun _ s' => I (done ++ [x]) s') s) ->
    fwp (ffor rest body) (fun _ s' => I l s') s).
  { induction rest as [|x rest IH]; intros done s E H HB.
    - rewrite app_nil_r in E. rewrite E. exact H.
    - cbn [ffor]. apply fwp_bind. eapply fwp_mono; [apply (HB done x rest); auto|].
      intros ? s' H'. apply (IH (done ++ [x])); auto. rewrite <- app_assoc. auto. }
  intros H HB. apply (G l []); auto.
Qed.

(** ** Descending chains *)
Lemma downward_app : forall ch a b x, downward ch x (a ++ b) <-> downward ch x a /\ downward ch (last a x) b.
Proof.
  intros ch a. induction a as [|y a IH]; intros b x; simpl; [tauto|].
  rewrite IH. destruct a as [|z a]; simpl; [tauto|].
  assert (E : forall c d : id, last (z :: a) c = last (z :: a) d).
  { clear. revert z. induction a; intros; simpl; auto. apply (IHa a). }
  simpl in E. rewrite (E y x). tauto.
Qed.

Lemma downward_ext : forall (ok : id -> Prop) ch ch' l x, ok x ->
  (forall p c, ok p -> In c (ch p) -> ok c /\ In c (ch' p)) -> downward ch x l -> downward ch' x l.
Proof.
  intros ok ch ch'. induction l as [|y l IH]; simpl; auto. intros x Hx H [Hy Hl].
  destruct (H _ _ Hx Hy). split; auto.
Qed.

Lemma last_snoc : forall (l : list id) x d, last (l ++ [x]) d = x.
Proof. induction l as [|y l IH]; intros; auto. simpl. rewrite IH. destruct (l ++ [x]) eqn:E; auto. destruct l; discriminate. Qed.

Lemma last_cons : forall (l : list id) x d, last (x :: l) d = last l x.
Proof.
  induction l as [|y l IH]; intros; auto. change (last (x :: y :: l) d) with (last (y :: l) d). rewrite !IH. auto.
Qed.

Lemma downward_rank : forall (r : id -> nat) ch, (forall p c, In c (ch p) -> r p < r c) ->
  forall l x, downward ch x l -> forall y, In y l -> r x < r y.
Proof.
  intros r ch H. induction l as [|z l IH]; simpl; intros x Hd y Hy; [tauto|]. destruct Hd as [Hz Hl].
  specialize (H _ _ Hz). destruct Hy as [->|Hy]; auto. specialize (IH _ Hl _ Hy). lia.
Qed.

Lemma downward_rank_last : forall (r : id -> nat) ch, (forall p c, In c (ch p) -> r p < r c) ->
  forall l x, downward ch x l -> forall y, In y l -> r y <= r (last l x).
Proof.
  intros r ch H. induction l as [|z l IH]; intros x Hd y Hy; [destruct Hy|]. rewrite last_cons.
  destruct Hd as [Hz Hl]. destruct Hy as [->|Hy].
  - destruct l as [|w l]; auto. pose proof (downward_rank r ch H (w :: l) y Hl (last (w :: l) y)) as L.
    assert (In (last (w :: l) y) (w :: l)); [|specialize (L H0); lia].
    clear. revert w. induction l as [|v l IH]; intros; [left; auto|]. right. apply (IH v).
  - apply IH; auto.
Qed.

Lemma downward_NoDup : forall (r : id -> nat) ch, (forall p c, In c (ch p) -> r p < r c) ->
  forall l x, downward ch x l -> NoDup l /\ ~ In x l.
Proof.
  intros r ch H. induction l as [|z l IH]; intros x Hd; [split; [constructor|tauto]|].
  destruct Hd as [Hz Hl]. destruct (IH _ Hl) as [N1 N2]. split; [constructor; auto|].
  intros Hx. pose proof (downward_rank r ch H (z :: l) x (conj Hz Hl) x Hx). lia.
Qed.

(** ** What clients know *)
(** The signals sent after [ear_base] name nodes that are [ear_ok] and delete paths
    that are [ear_gone]. If [ear_one] holds, no node is announced while clients know
    another path to it. *)
Class Ear := mkEar { ear_ok : id -> Prop; ear_base : list sig; ear_gone : list id -> Prop; ear_one : Prop }.
Definition fair {EAR : Ear} (x : sig) : Prop := match x with SAdded n _ | SModified n _ => ear_ok n | SDeleted _ q => ear_gone q | _ => True end.
Definition fresh_adds (l0 l : list sig) : Prop := forall a n q b cs p,
  l = a ++ SAdded n q :: b -> hear_all [] (l0 ++ a) cs -> ~ In (p ++ [n]) cs.
Definition heeds {EAR : Ear} (s : ft) : Prop := exists l, sent s = ear_base ++ l /\ Forall fair l /\ (ear_one -> fresh_adds ear_base l).
(** Each node is a child of at most one. *)
Definition lone_ch (ch : id -> list id) : Prop := forall x p q, In x (ch p) -> In x (ch q) -> p = q.
Definition fine {EAR : Ear} (n : id) : Prop := ~ In n reserved /\ ear_ok n.

Definition knows {EAR : Ear} (s : ft) (X : list id -> Prop) : Prop :=
  exists cs, (hear_all [] (sent s) cs /\ heeds s) /\ NoDup cs /\ forall l, In l cs <-> X l.

Lemma learn_fun : forall l cs c1 c2, hear_all cs l c1 -> hear_all cs l c2 -> c1 = c2.
Proof.
  induction l as [|x l IH] using rev_ind; intros cs c1 c2 H1 H2.
  - inversion H1; [|destruct l; discriminate]. inversion H2; [|destruct l; discriminate]. congruence.
  - assert (Cut : forall c, hear_all cs (l ++ [x]) c -> exists d, hear_all cs l d /\ hear d x c).
    { intros c H. inversion H; [destruct l; discriminate|]. subst. match goal with E : _ ++ [_] = l ++ [x] |- _ => apply app_inj_tail in E; destruct E; subst end. eauto. }
    destruct (Cut _ H1) as (d1 & A1 & B1). destruct (Cut _ H2) as (d2 & A2 & B2).
    rewrite (IH _ _ _ A2 A1) in B2. destruct B1; inversion B2; subst; auto;
      match goal with H : _ ++ [_] = _ ++ [_] |- _ => apply app_inj_tail in H; destruct H; subst; auto end.
Qed.

Lemma heeds_send : forall {EAR : Ear} s x, heeds s -> fair x ->
  (ear_one -> match x with SAdded n _ => forall cs p, hear_all [] (sent s) cs -> ~ In (p ++ [n]) cs | _ => True end) -> heeds (send x s).
Proof.
  intros EAR s x (l & H & F & O) Hx HO. exists (l ++ [x]). split; [simpl; rewrite H, app_assoc; auto|]. split; [apply Forall_app; auto|].
  intros Ho a n q b cs p E Hh. destruct b as [|y b] using rev_ind; [|clear IHb].
  - apply app_inj_tail in E. destruct E as [-> ->]. specialize (HO Ho). simpl in HO. apply HO. rewrite H. auto.
  - rewrite app_comm_cons, app_assoc in E. apply app_inj_tail in E. destruct E as [-> _]. eapply (O Ho a n q b); eauto.
Qed.

Lemma knows_iff : forall {EAR : Ear} s X Y, (forall l, X l <-> Y l) -> knows s X -> knows s Y.
Proof. intros EAR s X Y H (cs & A & B & C). exists cs. split; auto. split; auto. intros; split; intros; [apply H, C|apply C, H]; auto. Qed.

Lemma knows_sent : forall {EAR : Ear} s s' X, sent s' = sent s -> knows s X -> knows s' X.
Proof. intros EAR s s' X H (cs & (A & L) & B). exists cs. unfold heeds in *. rewrite H. auto. Qed.

(** Same view; only signals, queued actions and the clock differ. *)
Record like (s s' : ft) : Prop := {
  lk_root : froot s' = froot s; lk_flat : flat s' = flat s; lk_filters : filters s' = filters s; lk_nodes : fnodes s' = fnodes s }.
Lemma like_refl : forall s, like s s.
Proof. intros. constructor; auto. Qed.
Lemma like_trans : forall a b c, like a b -> like b c -> like a c.
Proof. intros a b c [] []. constructor; congruence. Qed.
#[global] Hint Resolve like_refl : core.

Lemma like_kids : forall s s' x, like s s' -> kids s' x = kids s x.
Proof. intros s s' x H. unfold kids. rewrite (lk_nodes _ _ H). auto. Qed.
Lemma like_pars : forall s s' x, like s s' -> pars s' x = pars s x.
Proof. intros s s' x H. unfold pars. rewrite (lk_nodes _ _ H). auto. Qed.
Lemma like_disp : forall s s' x, like s s' -> is_displayed s' x = is_displayed s x.
Proof. intros s s' x H. unfold is_displayed. rewrite (lk_nodes _ _ H). auto. Qed.

Lemma knows_added : forall {EAR : Ear} s n q X, fine n -> is_displayed s n = true -> knows s X -> ~ X (q ++ [n]) -> q = [] \/ X q ->
  (ear_one -> forall p, ~ X (p ++ [n])) ->
  fwp (callback_added n (q ++ [n])) (fun _ s' => like s s' /\ knows s' (fun l => X l \/ l = q ++ [n])) s.
Proof.
  intros EAR s n q X [Hr Hf] Hd HK Hn Hq HO. unfold fwp, callback_added. destruct (mem_spec n reserved) as [|_]; [contradiction|].
  rewrite Hd.
  assert (K : forall s', like s s' -> knows s' X -> let s2 := send (SAdded n (q ++ [n])) s' in
    like s s2 /\ knows s2 (fun l => X l \/ l = q ++ [n])).
  { intros s' L (cs & (A & HH) & B & C) s2. split; [destruct L; constructor; auto|].
    exists (cs ++ [q ++ [n]]). split; [|split].
    - split; [|apply heeds_send; auto; intros Ho cs' p Hc Hi; rewrite <- (learn_fun _ _ _ _ A Hc) in Hi; apply C in Hi; eapply HO; eauto]. eapply hear_more; [apply A|]. constructor; [intros H; apply Hn, C, H|]. destruct Hq; auto. right. apply C; auto.
    - apply NoDup_snoc; auto. intros H. apply Hn, C, H.
    - intros l. rewrite in_app_iff. simpl. rewrite C. intuition. }
  destruct (dget n (runonce s)) as [[|a0 acts]|]; [apply (K s); auto| |apply (K s); auto].
  assert (G : forall l s', like s s' -> knows s' X -> like s (fold_left (fun s a => send (SRun n a) s) l s') /\
     knows (fold_left (fun s a => send (SRun n a) s) l s') X).
  { clear -n EAR. induction l as [|a l IH]; simpl; intros s' L HK; auto. apply IH; [destruct L; constructor; auto|].
    destruct HK as (cs & (A & HH) & B & C). exists cs. split; auto. split; [|apply heeds_send; simpl; auto]. simpl. eapply hear_more; [apply A|constructor]. }
  destruct (G (a0 :: acts) s (like_refl s) HK) as [L HK']. apply K.
  - destruct L; constructor; auto.
  - eapply knows_sent; [|apply HK']. auto.
Qed.

Lemma knows_deleted : forall {EAR : Ear} s n q X, ear_gone (q ++ [n]) -> knows s X -> X (q ++ [n]) -> (forall b, b <> [] -> ~ X (q ++ [n] ++ b)) ->
  fwp (callback_deleted n (q ++ [n])) (fun _ s' => like s s' /\ knows s' (fun l => X l /\ l <> q ++ [n])) s.
Proof.
  intros EAR s n q X Hg (cs & (A & HH) & B & C) Hx Hb. apply fwp_modify. split; [constructor; auto|].
  exists (filter (fun p => negb (path_eqb p (q ++ [n]))) cs). split; [|split].
  - split; [|apply heeds_send; simpl; auto]. eapply hear_more; [apply A|]. constructor; [apply C; auto|]. intros b Hb0 H. apply (Hb b); auto. apply C; auto.
  - apply filter_NoDup; auto.
  - intros l. rewrite filter_In, C, negb_true_iff. split; intros [H1 H2]; split; auto.
    + intros ->. rewrite (proj2 (path_eqb_eq _ _) eq_refl) in H2. discriminate.
    + destruct (path_eqb l (q ++ [n])) eqn:E; auto. apply path_eqb_eq in E. contradiction.
Qed.

Lemma knows_modified : forall {EAR : Ear} s n q X, ear_ok n -> knows s X -> X (q ++ [n]) ->
  fwp (callback_modified n (q ++ [n])) (fun _ s' => like s s' /\ knows s' X /\ sent s' = sent s ++ [SModified n (q ++ [n])]) s.
Proof.
  intros EAR s n q X Hok (cs & (A & HH) & B & C) Hx. apply fwp_modify. split; [constructor; auto|]. split; auto.
  exists cs. split; auto. split; [|apply heeds_send; simpl; auto]. eapply hear_more; [apply A|]. constructor. apply C; auto.
Qed.

Lemma last_app_cons : forall (a : list id) x b d, last (a ++ x :: b) d = last (x :: b) d.
Proof. intros a x b. induction a as [|y a IH]; intros d; auto. cbn [app]. rewrite last_cons, IH, !last_cons. auto. Qed.

(** ** Paths *)
Definition chain (ch : id -> list id) (root n : id) (q : list id) : Prop := downward ch root q /\ last q root = n.

Section Paths.
  Variable s : ft.
  Variable ch : id -> list id.
  Variable g : id -> nat.
  Variable K : nat.
  Hypothesis HP : forall x p, x <> froot s -> g x <= K -> In p (pars s x) -> is_displayed s p = true /\ In x (kids s p) /\ g p < g x.
  Hypothesis HN : forall x, g x <= K -> NoDup (pars s x).
  Hypothesis HS : forall x p, x <> froot s -> g x <= K -> (In p (pars s x) <-> In x (ch p)).
  Hypothesis HR : forall p c, In c (ch p) -> g p < g c.

  Lemma chain_root : forall q, chain ch (froot s) (froot s) q <-> q = [].
  Proof.
    split; [|intros ->; split; simpl; auto]. intros [H1 H2]. destruct q as [|x q]; auto. exfalso.
    pose proof (downward_rank g ch HR _ _ H1 (last (x :: q) (froot s))) as L. rewrite H2 in L.
    assert (In (froot s) (x :: q)); [|specialize (L H); lia]. rewrite <- H2 at 1. clear. revert x.
    induction q as [|v l IH]; intros; [left; auto|]. right. apply (IH v).
  Qed.

  Lemma chain_last : forall n q, n <> froot s -> chain ch (froot s) n q ->
    exists p q', q = q' ++ [n] /\ In n (ch p) /\ chain ch (froot s) p q'.
  Proof.
    intros n q Hn [H1 H2]. destruct (exists_last (l := q)) as (q' & x & ->).
    - intros ->. simpl in H2. auto.
    - rewrite last_snoc in H2. subst x. apply downward_app in H1. simpl in H1. destruct H1 as (H1 & H3 & _).
      exists (last q' (froot s)), q'. repeat split; auto.
  Qed.

  Lemma chain_snoc : forall n p q, In n (ch p) -> chain ch (froot s) p q -> chain ch (froot s) n (q ++ [n]).
  Proof.
    intros n p q Hn [H1 H2]. split; [|apply last_snoc]. apply downward_app. rewrite H2. simpl. auto.
  Qed.

  Definition below_rank (n : id) : nat := length (filter (fun y => Nat.ltb (g y) (g n)) (dkeys (fnodes s))).
  Lemma below_rank_lt : forall p n, is_displayed s p = true -> g p < g n -> below_rank p < below_rank n.
  Proof.
    intros p n Hp H. unfold below_rank. apply filter_length_lt with (p := p).
    - intros x Hx. apply Nat.ltb_lt in Hx. apply Nat.ltb_lt. lia.
    - apply dmem_In; auto.
    - apply Nat.ltb_irrefl.
    - apply Nat.ltb_lt. auto.
  Qed.
  Lemma below_rank_le : forall n, below_rank n <= length (fnodes s).
  Proof.
    intros n. unfold below_rank. rewrite <- dkeys_length. generalize (dkeys (fnodes s)) as l.
    induction l as [|a l IH]; simpl; auto. destruct (g a <? g n); simpl; lia.
  Qed.

  Lemma fpaths_spec : forall fuel n, g n <= K -> is_displayed s n = true -> below_rank n < fuel ->
    exists P, fpaths fuel s n = Ok P /\ NoDup P /\ forall q, In q P <-> chain ch (froot s) n q.
  Proof.
    induction fuel as [|fuel IH]; intros n Hk Hd Hf; [lia|]. cbn [fpaths]. deq n (froot s).
    { subst. exists [[]]. split; auto. split; [repeat constructor; simpl; tauto|]. intros q. rewrite chain_root. simpl. intuition. }
    unfold is_displayed, dmem in Hd. destruct (dget n (fnodes s)) as [e|] eqn:En; [|discriminate].
    assert (Ep : pars s n = fpar e) by (unfold pars; rewrite En; auto).
    assert (G : forall ps, NoDup ps -> (forall p, In p ps -> In p (fpar e)) -> exists P,
       (fix go (ps : list id) : res (list (list id)) :=
          match ps with
          | [] => Ok []
          | p :: rest =>
              match dget p (fnodes s) with
              | None => Err PyException
              | Some pe =>
                  if mem n (fchi pe) then
                    match fpaths fuel s p with
                    | Ok paths => match go rest with Ok more => Ok (map (fun q => q ++ [n]) paths ++ more) | Err e => Err e | Diverge => Diverge end
                    | Err e => Err e
                    | Diverge => Diverge
                    end
                  else Err PyException
              end
          end) ps = Ok P /\ NoDup P /\ forall q, In q P <-> exists p q', In p ps /\ q = q' ++ [n] /\ chain ch (froot s) p q').
    { induction ps as [|p ps IHp]; intros ND Hin.
      - exists []. split; auto. split; [constructor|]. intros q. split; [intros []|]. intros (p & q' & [] & _).
      - apply NoDup_cons_iff in ND. destruct ND as [N1 N2].
        destruct (HP n p) as (Dp & Kp & Gp); auto; [rewrite Ep; apply Hin; left; auto|].
        pose proof (below_rank_lt p n Dp Gp) as Lp.
        destruct (IH p ltac:(lia) Dp ltac:(lia)) as (P1 & E1 & ND1 & I1). rewrite E1.
        destruct (IHp N2) as (P2 & E2 & ND2 & I2); [intros; apply Hin; right; auto|].
        unfold is_displayed, dmem in Dp. unfold kids in Kp. destruct (dget p (fnodes s)) as [pe|]; [|discriminate].
        rewrite (proj2 (mem_In _ _) Kp), E2. exists (map (fun q => q ++ [n]) P1 ++ P2). split; auto. split.
        + apply NoDup_app_intro; auto.
          * apply FinFun.Injective_map_NoDup; auto. intros a b H. apply app_inj_tail in H. tauto.
          * intros q Hq H2. apply in_map_iff in Hq. destruct Hq as (q1 & <- & Hq1). apply I1 in Hq1. apply I2 in H2.
            destruct H2 as (p2 & q2 & Hp2 & Eq & C2). apply app_inj_tail in Eq. destruct Eq as [-> _].
            destruct Hq1 as [_ L1], C2 as [_ L2]. congruence.
        + intros q. rewrite in_app_iff, in_map_iff, I2. split.
          * intros [(q1 & <- & Hq1)|(p2 & q2 & Hp2 & H)].
            -- exists p, q1. split; [left; auto|]. split; auto. apply I1; auto.
            -- exists p2, q2. split; [right; auto|auto].
          * intros (p2 & q2 & [->|Hp2] & -> & C2).
            -- left. exists q2. split; auto. apply I1; auto.
            -- right. exists p2, q2. auto. }
    destruct (G (fpar e)) as (P & EP & ND & I); auto.
    { rewrite <- Ep. apply HN; auto. }
    exists P. split; [exact EP|]. split; auto. intros q. rewrite I. split.
    - intros (p & q' & Hp & -> & C). apply (chain_snoc n p); auto. apply HS; auto. rewrite Ep. auto.
    - intros C. destruct (chain_last n q) as (p & q' & -> & Hp & C'); auto. exists p, q'. split; auto.
      rewrite <- Ep. apply HS; auto.
  Qed.

  Lemma view_paths_spec : forall n, g n <= K -> is_displayed s n = true ->
    exists P, view_paths s n = Ok P /\ NoDup P /\ forall q, In q P <-> chain ch (froot s) n q.
  Proof. intros n Hk Hd. unfold view_paths. apply fpaths_spec; auto. pose proof (below_rank_le n). lia. Qed.
End Paths.

(** No restriction; or only nodes of a tree, after the signals [l]. *)
Definition any_ear : Ear := mkEar (fun _ => True) [] (fun _ => True) False.
Definition tree_ear (T : mtree) (l : list sig) (G : list id -> Prop) (O : Prop) : Ear := mkEar (fun n => has_node T n = true) l G O.

Lemma fair_any : forall x : sig, @fair any_ear x.
Proof. destruct x; simpl; auto. Qed.

Lemma heeds_any : forall s, @heeds any_ear s.
Proof. intros s. exists (sent s). split; auto. split; [|intros []]. apply Forall_forall. intros. apply fair_any. Qed.

Lemma heeds_tree : forall T G O s, @heeds (tree_ear T (sent s) G O) s.
Proof. intros T G O s. exists []. rewrite app_nil_r. split; auto. split; auto. intros _ a n q b cs p E. destruct a; discriminate. Qed.

Lemma knows_ear : forall (E1 E2 : Ear) s X, @heeds E2 s -> @knows E1 s X -> @knows E2 s X.
Proof. intros E1 E2 s X H (cs & (A & _) & B). exists cs. auto. Qed.
