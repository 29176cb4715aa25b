(** Lemmas about callbacks, the filter bank, counts and named views. *)
From Coq Require Import Ascii Permutation.
From Verif Require Import Base BaseFacts MainTree Spec MainFacts MainOps MainRun MainInv MainAdd MainEvents
  Callbacks Filters FTree ViewCount Api SpecApi.

Ltac dq x y :=
  let Q := fresh "Q" in
  destruct (String.eqb x y) eqn:Q;
  [ apply eqb_eq in Q; try subst y | apply eqb_neq in Q ].

(** Callbacks. *)
Section Registry.
  Context {F : Type}.
  Implicit Types (h : handlers F) (r : registry F).

  Lemma has_key_In : forall k h, has_key k h = true <-> In k (map fst h).
  Proof.
    intros k h. unfold has_key. rewrite existsb_exists, in_map_iff. split.
    - intros (x & H & E). apply Nat.eqb_eq in E. eauto.
    - intros (x & E & H). exists x. split; auto. apply Nat.eqb_eq; auto.
  Qed.

  Lemma free_key_spec : forall fuel k h, In (free_key fuel k h) (map fst h) ->
    forall j, j <= fuel -> In (k + j) (map fst h).
  Proof.
    induction fuel; simpl; intros k h H j Hj.
    - replace (k + j) with k by lia. auto.
    - destruct (has_key k h) eqn:E.
      + destruct j; [replace (k + 0) with k by lia; apply has_key_In; auto|].
        replace (k + S j) with (S k + j) by lia. apply IHfuel; auto. lia.
      + apply has_key_In in H. congruence.
  Qed.

  Lemma free_key_fresh : forall h, ~ In (free_key (length h) 0 h) (map fst h).
  Proof.
    intros h H. pose proof (free_key_spec _ _ _ H) as A.
    assert (L : length (seq 0 (S (length h))) <= length (map fst h)).
    { apply NoDup_incl_length; [apply seq_NoDup|]. intros x Hx. apply in_seq in Hx. apply (A x). lia. }
    rewrite seq_length, map_length in L. lia.
  Qed.

  Lemma del_key_filter : forall k h, NoDup (map fst h) ->
    del_key k h = filter (fun x => negb (Nat.eqb (fst x) k)) h.
  Proof.
    induction h as [|[k' f] h IH]; simpl; intros N; auto. apply NoDup_cons_iff in N. destruct N as [N1 N2].
    rewrite Nat.eqb_sym. destruct (Nat.eqb k' k) eqn:E; simpl; [|f_equal; auto].
    apply Nat.eqb_eq in E. subst. symmetry. apply filter_id. intros x Hx. apply negb_true_iff, Nat.eqb_neq.
    intros <-. apply N1. apply in_map. auto.
  Qed.

  Lemma filter_keys_NoDup : forall g h, NoDup (map fst h) -> NoDup (map fst (filter g h)).
  Proof.
    induction h as [|x h IH]; simpl; intros N; auto. apply NoDup_cons_iff in N. destruct N as [N1 N2].
    destruct (g x); simpl; auto. constructor; auto. intro H. apply N1. apply in_map_iff in H.
    destruct H as (y & E & Hy). apply filter_In in Hy. apply in_map_iff. exists y. tauto.
  Qed.

  Lemma handlers_dset : forall ev ev' h r,
    handlers_of ev' (dset ev h r) = if String.eqb ev ev' then h else handlers_of ev' r.
  Proof.
    intros. unfold handlers_of. dq ev ev'; [rewrite dget_dset_same|rewrite dget_dset_other by auto]; auto.
  Qed.

  Lemma handlers_deregister : forall ev k ev' r,
    handlers_of ev' (deregister ev k r) = if String.eqb ev ev' then del_key k (handlers_of ev' r) else handlers_of ev' r.
  Proof.
    intros. unfold deregister. destruct (dget ev r) as [h|] eqn:E.
    - rewrite handlers_dset. dq ev ev'; auto. unfold handlers_of. rewrite E. auto.
    - dq ev ev'; auto. unfold handlers_of. rewrite E. auto.
  Qed.

  Lemma registered_keys : forall r, registered r -> forall ev, NoDup (map fst (handlers_of ev r)).
  Proof.
    induction 1 as [|r ev f H IH|r ev k H IH]; intros ev'; [constructor| |].
    - unfold register. simpl fst. rewrite handlers_dset. dq ev ev'; auto. rewrite map_app. apply NoDup_snoc; auto.
      apply free_key_fresh.
    - rewrite handlers_deregister. dq ev ev'; auto. rewrite del_key_filter; auto. apply filter_keys_NoDup; auto.
  Qed.

  Lemma register_exact : forall r ev f, registered r ->
    let r' := fst (register ev f r) in let k := snd (register ev f r) in
    ~ In k (map fst (handlers_of ev r)) /\
    handlers_of ev r' = handlers_of ev r ++ [(k, f)] /\ called ev r' = called ev r ++ [f] /\
    forall ev', ev' <> ev -> handlers_of ev' r' = handlers_of ev' r.
  Proof.
    intros r ev f H r' k. subst r' k. unfold register, called. cbn [fst snd]. repeat split.
    - apply free_key_fresh.
    - rewrite handlers_dset, eqb_refl. auto.
    - rewrite handlers_dset, eqb_refl, map_app. auto.
    - intros ev' Hne. rewrite handlers_dset. dq ev ev'; congruence.
  Qed.

  Lemma deregister_exact : forall r ev k, registered r ->
    handlers_of ev (deregister ev k r) = filter (fun x => negb (Nat.eqb (fst x) k)) (handlers_of ev r) /\
    (forall ev', ev' <> ev -> handlers_of ev' (deregister ev k r) = handlers_of ev' r) /\
    NoDup (map fst (handlers_of ev r)).
  Proof.
    intros r ev k H. pose proof (registered_keys r H) as N. repeat split; auto.
    - rewrite handlers_deregister, eqb_refl. apply del_key_filter; auto.
    - intros ev' Hne. rewrite handlers_deregister. dq ev ev'; congruence.
  Qed.
End Registry.

(** The bank. *)
Lemma bang_spec : forall n, bang n = true <-> exists rest, n = String "!"%char rest.
Proof.
  intros [|c n]; simpl; [split; [discriminate|intros (r & E); discriminate]|]. rewrite Ascii.eqb_eq. split.
  - intros ->. eauto.
  - intros (r & E). congruence.
Qed.

Lemma bank_available : forall c b, available b = [] -> available (bank_call c b) = [].
Proof.
  intros [n f d|n|n d] b H; simpl.
  - unfold add_filter. destruct (mem _ _); auto. destruct (bang n); auto.
  - unfold remove_filter. destruct (dmem n (available b)); auto. destruct (dmem n (custom b)); auto.
  - unfold bank_set_parameters. rewrite H. simpl. destruct (dget n (custom b)); auto.
Qed.

Lemma bank_calls_snoc : forall l c, bank_calls (l ++ [c]) = bank_call c (bank_calls l).
Proof. intros. unfold bank_calls. rewrite fold_left_app. auto. Qed.

Lemma bank_calls_available : forall l, available (bank_calls l) = [].
Proof. induction l as [|c l IH] using rev_ind; auto. rewrite bank_calls_snoc. apply bank_available; auto. Qed.

Lemma dmem_dget : forall V k (d : dict V), dmem k d = match dget k d with Some _ => true | None => false end.
Proof. reflexivity. Qed.

Lemma dmem_keys : forall V k (d : dict V), dmem k d = mem k (dkeys d).
Proof.
  intros V k d. unfold dmem, dkeys. induction d as [|[k' v] d IH]; simpl; auto. destruct (String.eqb k k'); auto.
Qed.

Lemma get_custom : forall b n, available b = [] -> get_filter b n = dget n (custom b).
Proof. intros b n H. unfold get_filter. rewrite H. auto. Qed.

Lemma bank_get : forall c b m, available b = [] -> NoDup (dkeys (custom b)) ->
  (match c with BAdd n _ _ => bang n = false | _ => True end) ->
  get_filter (bank_call c b) m =
  match c with
  | BAdd n f d => match get_filter b m with Some x => Some x | None => if String.eqb n m then Some (mkFilt f d) else None end
  | BRemove n => if String.eqb n m then None else get_filter b m
  | BParam n (Some d) => if String.eqb n m then option_map (fun x => mkFilt (f_fun x) (Some d)) (get_filter b m) else get_filter b m
  | BParam n None => get_filter b m
  end.
Proof.
  intros c b m Ha N Hb. rewrite !get_custom by (auto; apply bank_available; auto). destruct c as [n f d|n|n d]; simpl.
  - unfold add_filter, list_filters. rewrite Ha. simpl. rewrite Hb. rewrite <- dmem_keys. unfold dmem.
    destruct (dget n (custom b)) as [x|] eqn:E; simpl.
    + destruct (dget m (custom b)) eqn:Em; auto. dq n m; congruence.
    + dq n m.
      * rewrite dget_dset_same, E. unfold set_parameters. destruct d; auto.
      * rewrite dget_dset_other by auto. destruct (dget m (custom b)); auto.
  - unfold remove_filter. rewrite Ha. simpl. unfold dmem. destruct (dget n (custom b)) as [x|] eqn:E; simpl.
    + dq n m; [rewrite dget_ddel, eqb_refl by auto; auto|apply dget_ddel_other; auto].
    + dq n m; congruence.
  - unfold bank_set_parameters. rewrite Ha. simpl. destruct (dget n (custom b)) as [x|] eqn:E; simpl.
    + destruct d as [d|]; simpl.
      * dq n m; [rewrite dget_dset_same, E; auto|rewrite dget_dset_other by auto; auto].
      * dq n m; [rewrite dget_dset_same; auto|rewrite dget_dset_other by auto; auto].
    + destruct d as [d|]; auto. dq n m; auto. rewrite E. auto.
Qed.

Lemma bank_keys : forall c b, available b = [] -> NoDup (dkeys (custom b)) -> NoDup (dkeys (custom (bank_call c b))).
Proof.
  intros [n f d|n|n d] b Ha N; simpl.
  - unfold add_filter. destruct (mem n (list_filters b)) eqn:E; auto. destruct (bang n); auto. simpl.
    apply dset_NoDup; auto.
  - unfold remove_filter. destruct (dmem n (available b)); auto. destruct (dmem n (custom b)); auto. simpl.
    apply ddel_NoDup; auto.
  - unfold bank_set_parameters. rewrite Ha. simpl. destruct (dget n (custom b)); auto. simpl. apply dset_NoDup; auto.
Qed.

Lemma bank_calls_keys : forall l, NoDup (dkeys (custom (bank_calls l))).
Proof.
  induction l as [|c l IH] using rev_ind; [constructor|]. rewrite bank_calls_snoc. apply bank_keys; auto.
  apply bank_calls_available.
Qed.

Lemma plain_bang : forall l n f d, plain_names l -> In (BAdd n f d) l -> bang n = false.
Proof.
  intros l n f d H Hin. destruct (bang n) eqn:E; auto. apply bang_spec in E. destruct E as (r & ->).
  exfalso. eapply H; eauto.
Qed.

Lemma bank_lookup : forall l, plain_names l -> forall n, get_filter (bank_calls l) n = meaning (rev l) n.
Proof.
  induction l as [|c l IH] using rev_ind; intros H n; auto.
  assert (H' : plain_names l) by (intros m f d Hin; apply (H m f d); apply in_app_iff; auto).
  rewrite bank_calls_snoc, rev_app_distr. simpl rev. simpl app.
  rewrite bank_get; [|apply bank_calls_available|apply bank_calls_keys|].
  - rewrite !(IH H'). destruct c as [m f d|m|m [d|]]; simpl; auto.
  - destruct c as [m f d| |]; auto. eapply plain_bang; [exact H|]. apply in_app_iff. right. left. reflexivity.
Qed.

Lemma bank_listing : forall l, plain_names l ->
  NoDup (list_filters (bank_calls l)) /\
  forall n, In n (list_filters (bank_calls l)) <-> meaning (rev l) n <> None.
Proof.
  intros l H. unfold list_filters. rewrite bank_calls_available. simpl. split; [apply bank_calls_keys|].
  intros n. rewrite <- (bank_lookup l H n), get_custom by apply bank_calls_available.
  rewrite <- mem_In, <- dmem_keys. unfold dmem. destruct (dget n _); split; congruence.
Qed.

Lemma bank_has : forall l, plain_names l -> forall n, has_filter (bank_calls l) n = true <-> meaning (rev l) n <> None.
Proof.
  intros l H n. rewrite <- (bank_lookup l H n), get_custom by apply bank_calls_available.
  unfold has_filter. rewrite bank_calls_available. simpl. unfold dmem. destruct (dget n _); split; congruence.
Qed.

Lemma bank_add : forall l n f d, plain_names l -> bang n = false ->
  snd (add_filter n f d (bank_calls l)) = Ok (match meaning (rev l) n with None => true | Some _ => false end).
Proof.
  intros l n f d H Hb. rewrite <- (bank_lookup l H n), get_custom by apply bank_calls_available.
  unfold add_filter, list_filters. rewrite bank_calls_available, Hb. simpl. rewrite <- dmem_keys. unfold dmem.
  destruct (dget n _); auto.
Qed.

Lemma bank_remove : forall l n, plain_names l ->
  snd (remove_filter n (bank_calls l)) = match meaning (rev l) n with None => false | Some _ => true end.
Proof.
  intros l n H. rewrite <- (bank_lookup l H n), get_custom by apply bank_calls_available.
  unfold remove_filter. rewrite bank_calls_available. simpl. unfold dmem. destruct (dget n _); auto.
Qed.

(** Negation. *)
Lemma negate_complement : forall t f n flat v,
  (forall ng, f t n (Some (mkParams ng flat v)) = f t n (Some (mkParams false flat v))) ->
  has_node t n = true ->
  filt_displayed t (mkFilt f (Some (mkParams true flat v))) n =
  negb (filt_displayed t (mkFilt f (Some (mkParams false flat v))) n).
Proof. intros t f n fl v H Hn. unfold filt_displayed. rewrite Hn. simpl. rewrite (H true). auto. Qed.

(** Versions. *)
Lemma digit_char : forall d, d < 10 -> digit (ascii_of_nat (48 + d)) = Some d.
Proof.
  intros d H. unfold digit. rewrite nat_ascii_embedding by lia.
  replace (Nat.leb 48 (48 + d)) with true by (symmetry; apply Nat.leb_le; lia).
  replace (Nat.leb (48 + d) 57) with true by (symmetry; apply Nat.leb_le; lia).
  replace (48 + d - 48) with d by lia. auto.
Qed.

Lemma digits_app : forall s r acc, digits (s ++ r)%string acc =
  match digits s acc with Some a => digits r a | None => None end.
Proof.
  induction s as [|c s IH]; simpl; intros; auto. destruct (digit c); auto.
Qed.

Lemma digits_one : forall c acc, digits (String c "") acc = match digit c with Some d => Some (10 * acc + d) | None => None end.
Proof. intros. reflexivity. Qed.

Lemma digits_numeral : forall s n, numeral s n -> digits s 0 = Some n.
Proof.
  induction 1 as [d H|s n d H IH Hd].
  - rewrite digits_one, digit_char by auto. auto.
  - rewrite digits_app, IH, digits_one, digit_char by auto. auto.
Qed.

Lemma int_numeral : forall s n, numeral s n -> int_of s = Some n.
Proof.
  intros s n H. unfold int_of. pose proof (digits_numeral s n H). destruct s; auto. inversion H; subst.
  destruct s; discriminate.
Qed.

Definition is_digit (c : ascii) : bool := match digit c with Some _ => true | None => false end.

Fixpoint all_digits (s : string) : bool :=
  match s with EmptyString => true | String c r => is_digit c && all_digits r end.

Lemma all_digits_some : forall s acc n, digits s acc = Some n -> all_digits s = true.
Proof.
  induction s as [|c s IH]; simpl; intros; auto. unfold is_digit. destruct (digit c); [|discriminate]. simpl. eauto.
Qed.

Lemma split_digits : forall s r, all_digits s = true ->
  split_dot (s ++ String "."%char r)%string = s :: split_dot r.
Proof.
  induction s as [|c s IH]; simpl; intros r H; auto. apply andb_true_iff in H. destruct H as [H1 H2].
  destruct (Ascii.eqb c "."%char) eqn:E; [apply Ascii.eqb_eq in E; subst; discriminate|].
  rewrite IH; auto.
Qed.

Lemma split_digits_end : forall s, all_digits s = true -> split_dot s = [s].
Proof.
  induction s as [|c s IH]; simpl; intros H; auto. apply andb_true_iff in H. destruct H as [H1 H2].
  destruct (Ascii.eqb c "."%char) eqn:E; [apply Ascii.eqb_eq in E; subst; discriminate|].
  rewrite IH; auto.
Qed.

Lemma compatible : forall a b ma mi, numeral a ma -> numeral b mi ->
  is_compatible (a ++ "." ++ b)%string = Ok (Nat.eqb ma 3 && Nat.leb mi 0).
Proof.
  intros a b ma mi Ha Hb. unfold is_compatible. simpl append.
  rewrite split_digits by (eapply all_digits_some, digits_numeral; eauto).
  rewrite split_digits_end by (eapply all_digits_some, digits_numeral; eauto).
  cbn [map]. rewrite (int_numeral _ _ Ha), (int_numeral _ _ Hb). reflexivity.
Qed.
