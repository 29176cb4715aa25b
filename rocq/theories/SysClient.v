(** The clients of the views in the whole library. *)
From Coq Require Import Permutation.
From Verif Require Import Base BaseFacts MainTree Spec MainFacts MainInv MainReg MainRegDel MainTight Filters FTree ViewCount Api ViewApi SpecApi ApiFacts CountFacts
  SpecView SpecViewing FtView FtQuiet FtAny SpecSys SysFacts.

Section Client.
  Variable ord : nat -> list id -> list id.
  Hypothesis HO : forall k l, Permutation (ord k l) l.

  Definition follows (s s' : ft) : Prop := exists l, sent s' = sent s ++ l /\ forall cs, NoDup cs -> (forall q, In q cs <-> view_path s q) ->
    exists cs', hear_all cs l cs' /\ NoDup cs' /\ forall q, In q cs' <-> view_path s' q.

  Lemma follows_self : forall s, follows s s.
  Proof. intros s. exists []. rewrite app_nil_r. split; auto. intros cs H1 H2. exists cs. split; [constructor|]. auto. Qed.

  Lemma view_follows : forall y i s c, sinv y -> nth_error (s_listeners y) i = Some (LView s) -> supported (s_tree y, s_bank y, s) c ->
    exists s', view_call ord c (s_tree y, s_bank y, s) = (new_tree c (s_tree y), new_bank c (s_bank y), s', Ok tt) /\ follows s s'.
  Proof.
    intros y i s c I H X. destruct (i_all _ I i _ H) as [N U].
    destruct (uptodate_call ord HO c (s_tree y) (s_bank y) s (i_reg _ I) N (i_local _ I) (i_avail _ I) (i_keys _ I) U X) as (s' & E & _ & _ & _ & _ & K).
    exists s'. split; auto.
  Qed.


  Lemma lib_follows : forall c y i s, sinv y -> fits y c -> nth_error (s_listeners y) i = Some (LView s) -> c <> LState i ->
    exists s', nth_error (s_listeners (fst (lib_call ord c y))) i = Some (LView s') /\ follows s s'.
  Proof.
    intros c y i s I X H NS.
    assert (Keep : forall ls', nth_error ls' i = Some (LView s) -> exists s', nth_error ls' i = Some (LView s') /\ follows s s').
    { intros ls' E. exists s. split; auto. apply follows_self. }
    assert (Tr : forall o, fits y (LTree o) -> exists s', nth_error (s_listeners (fst (tree_call ord o y))) i = Some (LView s') /\ follows s s').
    { intros o Xo. destruct (tree_step ord HO o y I Xo) as (_ & _ & D & _). rewrite D, nth_error_map, H. cbn [option_map hear_list fst].
      destruct (view_follows y i s (VTree o) I H) as (s' & E & K).
      { destruct Xo as [Cm Xo]. split; auto. destruct o; auto. destruct Xo as [X1 X2]. split; auto. apply X2. eapply nth_error_In; eauto. }
      cbn [view_call] in E. destruct (feed ord (s_bank y) (events o (s_tree y)) s) as [s1 r]. inv E. exists s'. auto. }
    assert (App : forall ls, nth_error (s_listeners y ++ ls) i = Some (LView s)).
    { intros ls. rewrite nth_error_app1; auto. apply nth_error_Some. congruence. }
    assert (Oth : forall j l, j <> i -> nth_error (set_nth j l (s_listeners y)) i = Some (LView s)).
    { intros j l Nj. rewrite nth_set. destruct (Nat.eqb_spec i j); [congruence|auto]. }
    assert (Put : forall s', nth_error (set_nth i (LView s') (s_listeners y)) i = Some (LView s')).
    { intros s'. rewrite nth_set, H, Nat.eqb_refl. auto. }
    destruct c as [o|name|name| |j n p rs|j n|j|j n a|j|j n|j n|j f|c]; cbn [lib_call fits] in *.
    - auto.
    - unfold get_viewtree. destruct name as [x|]; [destruct (dget x (s_views y)); [apply Keep; auto|]|];
        (destruct (refilter ord (s_bank y) (s_tree y) _) as [s1 [[]|e|]]; apply Keep; apply App).
    - unfold get_viewcount. destruct name as [x|]; [destruct (dget x (s_counts y)); [apply Keep; auto|]|];
        (destruct (vc_refresh (s_bank y) (s_tree y) new_vc) as [s1 [[]|e|]]; apply Keep; apply App).
    - unfold main_filtered. destruct (i_main _ I) as (h & M1 & M2). rewrite M1. destruct h as [k|]; [apply Keep; auto|].
      assert (Ni : i <> 0) by (intros ->; congruence).
      unfold get_viewtree. destruct (refilter ord (s_bank y) (s_tree y) _) as [s1 [[]|e|]]; apply Keep; try apply App.
      cbn [fst s_listeners done]. rewrite nth_set. destruct (Nat.eqb_spec i 0); [congruence|]. apply App.
    - destruct X as [[Hd (s0 & H0)] X]. unfold view_apply_filter. rewrite H0. destruct (Nat.eq_dec j i) as [->|Nj].
      + rewrite H in H0. inv H0. destruct (view_follows y i s0 (VApply n p rs) I H) as (s' & E & K).
        { destruct p; simpl; auto. apply X. discriminate. }
        cbn [view_call] in E. destruct (apply_filter ord (s_tree y) n p rs true (s_bank y) s0) as [[b1 s1] r]. inv E. exists s'. cbn [fst s_listeners]. auto.
      + destruct (apply_filter ord (s_tree y) n p rs true (s_bank y) s0) as [[b1 s1] r]. apply Keep. apply Oth. auto.
    - destruct X as [Hd (s0 & H0)]. unfold view_unapply_filter. rewrite H0. destruct (Nat.eq_dec j i) as [->|Nj].
      + rewrite H in H0. inv H0. destruct (view_follows y i s0 (VUnapply n) I H) as (s' & E & K); [exact Logic.I|].
        cbn [view_call] in E. destruct (unapply_filter ord (s_bank y) (s_tree y) n true s0) as [s1 r]. inv E. exists s'. cbn [fst s_listeners]. auto.
      + destruct (unapply_filter ord (s_bank y) (s_tree y) n true s0) as [s1 r]. apply Keep. apply Oth. auto.
    - destruct X as [Hd (s0 & H0)]. unfold view_reset_filters. rewrite H0. destruct (Nat.eq_dec j i) as [->|Nj].
      + rewrite H in H0. inv H0. destruct (view_follows y i s0 VReset I H) as (s' & E & K); [exact Logic.I|].
        cbn [view_call] in E. destruct (reset_filters ord (s_bank y) (s_tree y) true s0) as [s1 r]. inv E. exists s'. cbn [fst s_listeners]. auto.
      + destruct (reset_filters ord (s_bank y) (s_tree y) true s0) as [s1 r]. apply Keep. apply Oth. auto.
    - destruct X as [[Hd (s0 & H0)] X]. unfold view_queue_action. rewrite H0. destruct (Nat.eq_dec j i) as [->|Nj].
      + rewrite H in H0. inv H0. destruct (view_follows y i s0 (VQueue n a) I H) as (s' & E & K); [exact X|].
        cbn [view_call] in E. destruct (queue_action n a s0) as [s1 r]. inv E. exists s'. cbn [fst s_listeners]. auto.
      + destruct (queue_action n a s0) as [s1 r]. apply Keep. apply Oth. auto.
    - unfold view_current_state. destruct X as [->|[Hd (s0 & H0)]].
      + destruct (i_main _ I) as (h & M1 & _). rewrite M1. apply Tr. apply refresh_fits.
      + rewrite H0. assert (Nj : j <> i) by congruence. destruct (get_current_state s0) as [s1 r]. apply Keep. apply Oth. auto.
    - destruct X as (v & H0). unfold count_apply_filter. rewrite H0. assert (Nj : j <> i) by congruence.
      destruct (vc_apply_filter (s_bank y) (s_tree y) n true v) as [v1 r]. apply Keep. apply Oth. auto.
    - destruct X as (v & H0). unfold count_unapply_filter. rewrite H0. assert (Nj : j <> i) by congruence.
      destruct (vc_unapply_filter (s_bank y) (s_tree y) n v) as [v1 r]. apply Keep. apply Oth. auto.
    - destruct X as (v & H0). unfold count_register. rewrite H0. assert (Nj : j <> i) by congruence. apply Keep. apply Oth. auto.
    - apply Keep. auto.
  Qed.

  Lemma clients : forall y, library ord y -> forall c i s, fits y c -> nth_error (s_listeners y) i = Some (LView s) -> c <> LState i ->
    exists s' l, nth_error (s_listeners (fst (lib_call ord c y))) i = Some (LView s') /\ sent s' = sent s ++ l /\
      forall cs, NoDup cs -> (forall q, In q cs <-> view_path s q) ->
        exists cs', hear_all cs l cs' /\ NoDup cs' /\ forall q, In q cs' <-> view_path s' q.
  Proof.
    intros y L c i s X H N. destruct (lib_follows c y i s (library_sinv ord HO y L) X H N) as (s' & E & l & E2 & K). exists s', l. auto.
  Qed.
End Client.
