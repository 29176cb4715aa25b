(** Concrete views with clients that raise. *)
From Coq Require Import Permutation.
From Verif Require Import Base BaseFacts MainTree Spec Filters FTree FEmit SpecApi SpecView SpecViewing SpecLoose SpecEmit MainFacts MainPaths Witness ApiWitness ViewWitness LooseCases FeThm.

(** A client that raises when one node is added or modified; when a node is deleted;
    in a queued action; never. *)
Definition at_node (x : id) : upset := fun _ y =>
  match y with SAdded n _ | SModified n _ => if String.eqb n x then Some TypeError else None | _ => None end.
Definition on_delete : upset := fun _ y => match y with SDeleted _ _ => Some ValueError | _ => None end.
Definition on_run : upset := fun _ y => match y with SRun _ _ => Some ValueError | _ => None end.
Definition content : upset := fun _ _ => None.
Lemma at_gentle : forall x, gentle (at_node x).
Proof. intros x. split; intros; reflexivity. Qed.
Definition etree (bad : upset) (o : mop) (x : viewed) : viewed :=
  let '(t, b, s) := x in let '(t', s', _) := e_call bad keep b o t s in (t', b, s').
Definition eresult (bad : upset) (o : mop) (x : viewed) : res unit := let '(t, b, s) := x in snd (e_call bad keep b o t s).
Definition equeue (n : id) (a : nat) (x : viewed) : viewed := let '(t, b, s) := x in (t, b, fst (queue_action n a s)).

(** The diamond in a flat view. An action waits for z; z comes below b, and a client
    raises; the data of b is set, and a client raises. *)
Definition eflat0 : viewed := opened keep vtree lbank (Some "v") ["work"; "flat"].
Definition eflat1 : viewed := equeue "z" 5 eflat0.
Definition eflat2 : viewed := etree (at_node "z") (put "z" 1 (Some "b")) eflat1.
Definition eflat3 : viewed := etree (at_node "b") (SetData "b" 1) eflat2.

Lemma upset_etree : forall bad o x, upset_flat keep x -> gentle bad -> any_fresh (fst (fst x)) o -> no_clashing_add (snd x) o -> upset_flat keep (etree bad o x).
Proof.
  intros bad o [[t b] s] H G F N. unfold etree. destruct (e_call bad keep b o t s) as [[t' s'] r] eqn:E. eapply upset_tree; eauto.
Qed.
Lemma upset_equeue : forall n a x, upset_flat keep x -> upset_flat keep (equeue n a x).
Proof. intros n a [[t b] s] H. unfold equeue. destruct (queue_action n a s) as [s' r] eqn:E. eapply upset_queue; eauto. Qed.
Lemma eflat_upset : upset_flat keep eflat1 /\ upset_flat keep eflat3.
Proof.
  assert (H1 : upset_flat keep eflat1).
  { apply upset_equeue. apply upset_open; [apply vtree_calm|apply unreserved; reflexivity|].
    exists "flat", (mkFilt all_nodes (Some (mkParams false true 0))), (mkParams false true 0). vm_compute. intuition. }
  split; [exact H1|]. apply upset_etree; [|apply at_gentle|exact I|exact I]. apply upset_etree; [exact H1|apply at_gentle|simpl; constructor|vm_compute; intuition discriminate].
Qed.
Lemma eflat_results : eresult (at_node "z") (put "z" 1 (Some "b")) eflat1 = Err TypeError /\ eresult (at_node "b") (SetData "b" 1) eflat2 = Err TypeError /\
  eresult (at_node "b") (SetData "d" 0) eflat3 = Ok tt /\ eresult (at_node "b") (SetData "b" 2) eflat3 = Err TypeError /\
  view_all_nodes (snd eflat3) = ["a"; "b"; "d"; "z"] /\ pars (snd eflat3) "z" = [froot (snd eflat3)] /\
  skipn 8 (sent (snd eflat3)) = [SModified "b" ["b"]; SRun "z" 5; SAdded "z" ["z"]; SModified "b" ["b"]].
Proof. vm_compute. auto 10. Qed.
Lemma eflat_tree : fst (fst eflat3) = hist (vtree_ops ++ [put "z" 1 (Some "b"); SetData "b" 1]).
Proof. vm_compute. reflexivity. Qed.
Lemma eflat_flat : flattened (snd (fst eflat3)) (filters (snd eflat3)).
Proof.
  exists "flat", (mkFilt all_nodes (Some (mkParams false true 0))), (mkParams false true 0). split; [vm_compute; auto|].
  split; [vm_compute; reflexivity|]. split; reflexivity.
Qed.
Lemma eflat_refilters : let '(t, b, s) := eflat3 in snd (e_refilter (at_node "a") keep b t s) = Err TypeError /\ snd (e_refilter (at_node "c") keep b t s) = Ok tt /\
  view_all_nodes (fst (e_refilter (at_node "c") keep b t s)) = ["a"; "b"; "d"; "z"].
Proof. vm_compute. auto. Qed.

Lemma eflat_case : let '(t, b, s) := eflat3 in
  upset_flat keep (t, b, s) /\ view_all_nodes s = ["a"; "b"; "d"; "z"] /\ pars s "z" = [froot s] /\
  skipn 8 (sent s) = [SModified "b" ["b"]; SRun "z" 5; SAdded "z" ["z"]; SModified "b" ["b"]].
Proof.
  destruct eflat_upset as (_ & H). destruct eflat_results as (_ & _ & _ & _ & H1 & H2 & H3). destruct eflat3 as [[t b] s]. auto.
Qed.
Lemma eflat_calls : let '(t, b, s) := eflat3 in
  upset_flat keep (t, b, s) /\ gentle (at_node "b") /\
  (any_fresh t (SetData "d" 0) /\ no_clashing_add s (SetData "d" 0) /\ snd (e_call (at_node "b") keep b (SetData "d" 0) t s) = Ok tt) /\
  any_fresh t (SetData "b" 2) /\ no_clashing_add s (SetData "b" 2) /\ snd (e_call (at_node "b") keep b (SetData "b" 2) t s) = Err TypeError.
Proof.
  destruct eflat_upset as (_ & H). destruct eflat_results as (_ & _ & H1 & H2 & _). destruct eflat3 as [[t b] s].
  split; auto. split; [apply at_gentle|]. split; [split; [exact I|split; [exact I|exact H1]]|]. split; [exact I|]. split; [exact I|exact H2].
Qed.
Lemma eflat_events : let '(t, b, s) := eflat3 in let o := SetData "d" 0 in
  e_call (at_node "b") keep b o t s = (after o t, snd (fst (e_call (at_node "b") keep b o t s)), Ok tt) /\ map ev_id (events o t) = ["d"] /\
  In "d" (view_all_nodes s) /\ ~ In "d" (view_all_nodes (snd (fst (e_call (at_node "b") keep b o t s)))).
Proof. vm_compute. intuition discriminate. Qed.
Lemma eflat_announced : let '(t, b, s) := eflat3 in let o := SetData "d" 0 in
  upset_flat keep (t, b, s) /\ gentle (at_node "b") /\ any_fresh t o /\ no_clashing_add s o /\
  e_call (at_node "b") keep b o t s = (after o t, snd (fst (e_call (at_node "b") keep b o t s)), Ok tt) /\ map ev_id (events o t) = ["d"] /\
  In "d" (view_all_nodes s) /\ ~ In "d" (view_all_nodes (snd (fst (e_call (at_node "b") keep b o t s)))).
Proof.
  destruct eflat_upset as (_ & H). pose proof eflat_events as H1. destruct eflat3 as [[t b] s]. split; auto. split; [apply at_gentle|]. split; [exact I|]. split; [exact I|exact H1].
Qed.
Lemma eflat_recovers : let '(t, b, s) := eflat3 in
  upset_flat keep (t, b, s) /\ gentle (at_node "a") /\ gentle (at_node "c") /\ reach calm t /\ flattened b (filters s) /\
  snd (e_refilter (at_node "a") keep b t s) = Err TypeError /\ snd (e_refilter (at_node "c") keep b t s) = Ok tt.
Proof.
  destruct eflat_upset as (_ & H). pose proof eflat_refilters as H1. pose proof eflat_flat as H2. pose proof eflat_tree as H3.
  destruct eflat3 as [[t b] s]. cbn [fst snd] in *. split; auto. split; [apply at_gentle|]. split; [apply at_gentle|]. split; [rewrite H3; apply run_calm; reflexivity|]. split; auto.
  destruct H1 as (A & B & _). auto.
Qed.

(** A view that is not flat: a with the children b and c, and the data of a becomes 0.
    The view deletes b and c, then a, and adds b and c again. *)
Definition efan_ops : list mop := [put "a" 1 None; put "b" 1 (Some "a"); put "c" 1 (Some "a")].
Definition efan : mtree := hist efan_ops.
Definition efan0 : viewed := opened keep efan vbank (Some "v") ["work"].
Lemma efan_viewing : viewing keep efan0.
Proof.
  constructor. split; [apply run_calm; reflexivity|]. split; [reflexivity|]. split.
  - intros x Hx. simpl in Hx. repeat destruct Hx as [<-|Hx]; try reflexivity. destruct Hx.
  - split; [apply vbank_local|]. split; [reflexivity|]. vm_compute. repeat constructor; simpl; intuition discriminate.
Qed.
Lemma borneb : forall bad k l, forallb (fun x => match bad (fst x) (snd x) with None => true | Some _ => false end) (combine (seq k (length l)) l) = true -> borne bad k l.
Proof.
  intros bad k l H l1 x l2 ->. revert k H. induction l1 as [|y l1 IH]; intros k H; cbn in H |- *.
  - rewrite Nat.add_0_r. destruct (bad k x); [discriminate|auto].
  - apply andb_true_iff in H. destruct H as [_ H]. rewrite Nat.add_succ_r. apply (IH (S k)). auto.
Qed.
Lemma efan_same : let '(t, b, s) := efan0 in let o := SetData "b" 0 in
  borne (at_node "c") (length (sent s)) (news s (snd (fst (view_call keep (VTree o) (t, b, s))))) /\
  In (SDeleted "b" ["a"; "b"]) (news s (snd (fst (view_call keep (VTree o) (t, b, s))))).
Proof. split; [apply borneb; vm_compute; reflexivity|]. vm_compute. auto 10. Qed.
Lemma efan_told : let '(t, b, s) := efan0 in let l := [SDeleted "c" ["a"; "c"]; SAdded "c" ["c"]; SModified "c" ["c"]; SDeleted "b" ["a"; "b"]] in
  exists l2, news s (snd (fst (view_call keep (VTree (SetData "a" 0)) (t, b, s)))) = l ++ SAdded "b" ["b"] :: l2 /\ l2 <> [] /\
  borne (at_node "b") (length (sent s)) l /\ at_node "b" (length (sent s) + length l) (SAdded "b" ["b"]) = Some TypeError.
Proof.
  cbv zeta. unfold efan0.
  assert (B : borne (at_node "b") (length (sent (snd efan0))) [SDeleted "c" ["a"; "c"]; SAdded "c" ["c"]; SModified "c" ["c"]; SDeleted "b" ["a"; "b"]]) by (apply borneb; vm_compute; reflexivity).
  assert (N : exists l2, news (snd efan0) (snd (fst (view_call keep (VTree (SetData "a" 0)) efan0))) =
    [SDeleted "c" ["a"; "c"]; SAdded "c" ["c"]; SModified "c" ["c"]; SDeleted "b" ["a"; "b"]] ++ SAdded "b" ["b"] :: l2 /\ l2 <> []) by (vm_compute; eexists; split; [reflexivity|discriminate]).
  fold efan0. destruct efan0 as [[t b] s]. cbn [fst snd] in *. destruct N as (l2 & N & N2). exists l2. split; auto.
Qed.
Lemma efan_refresh : let '(t, b, s) := efan0 in
  borne (at_node "d") (length (sent s)) (news s (fst (refilter keep b t s))) /\
  exists l2, news s (fst (refilter keep b t s)) = [SDeleted "c" ["a"; "c"]; SDeleted "b" ["a"; "b"]; SDeleted "a" ["a"]] ++ SAdded "a" ["a"] :: l2 /\
  borne (at_node "a") (length (sent s)) [SDeleted "c" ["a"; "c"]; SDeleted "b" ["a"; "b"]; SDeleted "a" ["a"]] /\ length l2 = 6.
Proof.
  assert (B : borne (at_node "d") (length (sent (snd efan0))) (news (snd efan0) (fst (refilter keep (snd (fst efan0)) (fst (fst efan0)) (snd efan0))))) by (apply borneb; vm_compute; reflexivity).
  assert (B' : borne (at_node "a") (length (sent (snd efan0))) [SDeleted "c" ["a"; "c"]; SDeleted "b" ["a"; "b"]; SDeleted "a" ["a"]]) by (apply borneb; vm_compute; reflexivity).
  assert (N : exists l2, news (snd efan0) (fst (refilter keep (snd (fst efan0)) (fst (fst efan0)) (snd efan0))) =
    [SDeleted "c" ["a"; "c"]; SDeleted "b" ["a"; "b"]; SDeleted "a" ["a"]] ++ SAdded "a" ["a"] :: l2 /\ length l2 = 6) by (vm_compute; eexists; split; reflexivity).
  destruct efan0 as [[t b] s]. cbn [fst snd] in *. split; auto. destruct N as (l2 & N & N2). exists l2. auto.
Qed.

(** *** What goes wrong *)
Definition hearb (cs : list (list id)) (x : sig) : option (list (list id)) :=
  match x with
  | SAdded _ p => if existsb (path_eqb p) cs then None else Some (cs ++ [p])
  | SDeleted _ p => if existsb (path_eqb p) cs then Some (filter (fun q => negb (path_eqb q p)) cs) else None
  | SModified _ p => if existsb (path_eqb p) cs then Some cs else None
  | SRun _ _ => Some cs
  end.
Fixpoint hearsb (cs : list (list id)) (l : list sig) : option (list (list id)) :=
  match l with [] => Some cs | x :: l => match hearb cs x with Some cs1 => hearsb cs1 l | None => None end end.
Lemma has_path : forall p cs, existsb (path_eqb p) cs = true <-> In p cs.
Proof.
  intros p cs. rewrite existsb_exists. split; [intros (q & H & E); apply path_eqb_eq in E; subst; auto|]. intros H. exists p. split; auto. apply path_eqb_eq. auto.
Qed.
Lemma hearb_ok : forall cs x cs', hear cs x cs' -> hearb cs x = Some cs'.
Proof.
  intros cs x cs' H. destruct H as [cs q n H _|cs q n H _|cs q n H|cs n a]; cbn [hearb]; auto.
  - destruct (existsb (path_eqb (q ++ [n])) cs) eqn:E; auto. apply has_path in E. contradiction.
  - apply has_path in H. rewrite H. auto.
  - apply has_path in H. rewrite H. auto.
Qed.
Lemma hearsb_app : forall l l' cs, hearsb cs (l ++ l') = match hearsb cs l with Some cs1 => hearsb cs1 l' | None => None end.
Proof. induction l as [|x l IH]; intros l' cs; cbn [hearsb app]; auto. destruct (hearb cs x); auto. Qed.
Lemma hearsb_ok : forall cs l cs', hear_all cs l cs' -> hearsb cs l = Some cs'.
Proof.
  intros cs l cs' H. induction H as [cs|cs l c1 x c2 H IH Hx]; auto. rewrite hearsb_app, IH. cbn [hearsb]. rewrite (hearb_ok _ _ _ Hx). auto.
Qed.
Lemma deaf : forall s, hearsb [] (sent s) = None -> ~ mirrored s.
Proof. intros s H (cs & Hc & _). apply hearsb_ok in Hc. congruence. Qed.
Lemma unlisted : forall s cs n e, hearsb [] (sent s) = Some cs -> existsb (path_eqb [n]) cs = false -> dget (froot s) (fnodes s) = Some e -> In n (fchi e) -> ~ mirrored s.
Proof.
  intros s cs n e H1 H2 H3 H4 (cs' & Hc & _ & Hp). apply hearsb_ok in Hc. rewrite H1 in Hc. injection Hc as <-.
  assert (In [n] cs) as H5 by (apply Hp; unfold view_path; split; [discriminate|]; cbn; unfold kids; rewrite H3; auto).
  apply has_path in H5. congruence.
Qed.

(** A flat view; the data of b becomes 0, and a client raises when b is deleted. *)
Definition bflat : viewed := etree on_delete (SetData "b" 0) eflat0.
Lemma bflat_shape : eresult on_delete (SetData "b" 0) eflat0 = Err ValueError /\ kids (snd bflat) (froot (snd bflat)) = ["a"; "b"; "d"] /\ pars (snd bflat) "b" = [].
Proof. vm_compute. auto. Qed.
Lemma bflat_tree : fst (fst bflat) = hist (vtree_ops ++ [SetData "b" 0]).
Proof. vm_compute. reflexivity. Qed.
Lemma bflat_call : let '(t, b, s) := eflat0 in let '(t1, _, s1) := bflat in e_call on_delete keep b (SetData "b" 0) t s = (t1, s1, Err ValueError).
Proof. vm_compute. reflexivity. Qed.
Lemma bflat_plain : forall b names, snd (refilter keep b (fst (fst bflat)) (set_filters names (snd bflat))) = Err KeyError.
Proof. intros b names. vm_compute. reflexivity. Qed.
Lemma bflat_forever : forall b bad names, snd (e_refilter bad keep b (fst (fst bflat)) (set_filters names (snd bflat))) <> Ok tt.
Proof.
  intros b bad names. destruct (e_cases bad _ _ _ (FeSame.shadow_refilter bad keep b (fst (fst bflat))) (set_filters names (snd bflat))) as [E|(s1 & e & E & _)]; rewrite E; [|discriminate].
  rewrite bflat_plain. discriminate.
Qed.
Lemma eflat0_upset : upset_flat keep eflat0.
Proof.
  apply upset_open; [apply vtree_calm|apply unreserved; reflexivity|].
  exists "flat", (mkFilt all_nodes (Some (mkParams false true 0))), (mkParams false true 0). vm_compute. intuition.
Qed.
Lemma bflat_refuted : exists ord t b s bad o t1 s1 e, (forall k l, Permutation (ord k l) l) /\ upset_flat ord (t, b, s) /\ any_fresh t o /\ no_clashing_add s o /\
  (forall k x, bad k x <> None -> exists n q, x = SDeleted n q) /\
  e_call bad ord b o t s = (t1, s1, Err e) /\ reach calm t1 /\ ~ sound s1 /\
  (forall b' names, snd (refilter ord b' t1 (set_filters names s1)) = Err KeyError) /\
  forall b' bad' names, snd (e_refilter bad' ord b' t1 (set_filters names s1)) <> Ok tt.
Proof.
  pose proof eflat0_upset as H1. pose proof bflat_call as H2. pose proof bflat_tree as H3. pose proof bflat_forever as H4. pose proof bflat_plain as H5. destruct bflat_shape as (_ & H6 & H7).
  destruct eflat0 as [[t b] s]. destruct bflat as [[t1 b1] s1]. cbn [fst snd] in *.
  exists keep, t, b, s, on_delete, (SetData "b" 0), t1, s1, ValueError. split; [apply keep_perm|]. split; auto. split; [exact I|]. split; [exact I|].
  split. { intros k x. destruct x; cbn; intros H; try contradiction. eauto. }
  split; auto. split; [rewrite H3; apply run_calm; reflexivity|]. split; [|auto].
  intros S. assert (H : In (froot s1) (pars s1 "b")) by (apply (so_sym _ S); rewrite H6; right; left; auto). rewrite H7 in H. destruct H.
Qed.

(** A view that is not flat; the data of a becomes 0, and a client raises when b comes
    to the top. *)
Definition efan1 : viewed := etree (at_node "b") (SetData "a" 0) efan0.
Lemma efan_call : let '(t, b, s) := efan0 in let '(t1, _, s1) := efan1 in e_call (at_node "b") keep b (SetData "a" 0) t s = (t1, s1, Err TypeError).
Proof. vm_compute. reflexivity. Qed.
Lemma efan_shape : kids (snd efan1) "a" = ["b"; "c"] /\ pars (snd efan1) "b" = [froot (snd efan1)] /\ froot (snd efan1) = "root_v" /\ supportedb efan0 (VTree (SetData "a" 0)) = true.
Proof. vm_compute. auto. Qed.
Lemma efan_later : let s2 := refilter keep (snd (fst efan0)) (fst (fst efan1)) (snd efan1) in snd s2 = Ok tt /\ hearsb [] (sent (fst s2)) = None.
Proof. vm_compute. auto. Qed.
Lemma efan_refuted : exists ord t b s bad o t1 s1 s2 e, (forall k l, Permutation (ord k l) l) /\ viewing ord (t, b, s) /\ supported (t, b, s) (VTree o) /\ gentle bad /\
  e_call bad ord b o t s = (t1, s1, Err e) /\ ~ sound s1 /\ refilter ord b t1 s1 = (s2, Ok tt) /\ ~ mirrored s2.
Proof.
  pose proof efan_viewing as H1. pose proof efan_call as H2. destruct efan_shape as (H3 & H4 & H5 & H6). destruct efan_later as (H7 & H8). apply supportedb_ok in H6.
  destruct efan0 as [[t b] s]. destruct efan1 as [[t1 b1] s1]. cbn [fst snd] in *. destruct (refilter keep b t1 s1) as [s2 r] eqn:E. cbn [fst snd] in *. subst r.
  exists keep, t, b, s, (at_node "b"), (SetData "a" 0), t1, s1, s2, TypeError. split; [apply keep_perm|]. split; auto. split; auto. split; [apply at_gentle|]. split; auto.
  split; [|split; auto; apply deaf; auto]. intros S. assert (H : In "a" (pars s1 "b")) by (apply (so_sym _ S); rewrite H3; left; auto). rewrite H4, H5 in H. destruct H as [H|[]]. discriminate.
Qed.

(** A flat view; z comes, and the action that waits for it raises. *)
Definition aflat : viewed := etree on_run (put "z" 1 None) eflat1.
Lemma aflat_call : let '(t, b, s) := eflat1 in let '(t1, _, s1) := aflat in e_call on_run keep b (put "z" 1 None) t s = (t1, s1, Err ValueError).
Proof. vm_compute. reflexivity. Qed.
Lemma aflat_shape : exists cs e, hearsb [] (sent (snd aflat)) = Some cs /\ existsb (path_eqb ["z"]) cs = false /\ dget (froot (snd aflat)) (fnodes (snd aflat)) = Some e /\ In "z" (fchi e).
Proof. vm_compute. do 2 eexists. split; [reflexivity|]. split; [reflexivity|]. split; [reflexivity|]. cbn. auto 10. Qed.
Lemma aflat_later : let s2 := refilter keep (snd (fst eflat1)) (fst (fst aflat)) (snd aflat) in snd s2 = Ok tt /\ hearsb [] (sent (fst s2)) = None.
Proof. vm_compute. auto. Qed.
Lemma aflat_refuted : exists ord t b s bad o t1 s1 s2 e, (forall k l, Permutation (ord k l) l) /\ upset_flat ord (t, b, s) /\ any_fresh t o /\ no_clashing_add s o /\
  (forall k x, bad k x <> None -> exists n a, x = SRun n a) /\
  e_call bad ord b o t s = (t1, s1, Err e) /\ ~ mirrored s1 /\ refilter ord b t1 s1 = (s2, Ok tt) /\ ~ mirrored s2.
Proof.
  destruct eflat_upset as (H1 & _). pose proof aflat_call as H2. destruct aflat_shape as (cs & e & A & B & C & D). destruct aflat_later as (H7 & H8).
  assert (Fz : any_fresh (fst (fst eflat1)) (put "z" 1 None)) by (simpl; constructor). assert (Nz : no_clashing_add (snd eflat1) (put "z" 1 None)) by (vm_compute; intuition discriminate).
  destruct eflat1 as [[t b] s]. destruct aflat as [[t1 b1] s1]. cbn [fst snd] in *. destruct (refilter keep b t1 s1) as [s2 r] eqn:E. cbn [fst snd] in *. subst r.
  exists keep, t, b, s, on_run, (put "z" 1 None), t1, s1, s2, ValueError. split; [apply keep_perm|]. split; auto. split; auto. split; auto.
  split. { intros k x. destruct x; cbn; intros H; try contradiction. eauto. }
  split; auto. split; [eapply unlisted; eauto|]. split; auto. apply deaf. auto.
Qed.
