(** Concrete views with filters that raise. *)
From Coq Require Import Permutation.
From Verif Require Import Base BaseFacts MainTree Spec Filters FTree FRaise SpecApi SpecView SpecViewing SpecLoose SpecRaise MainFacts Witness ApiWitness ViewWitness LooseCases.

(** The filter "work" raises for nodes with data 7; every filter raises for one node;
    no filter raises. *)
Definition sevens : trouble := fun name t n =>
  match dget n (nodes t) with Some nd => if String.eqb name "work" && Nat.eqb (data nd) 7 then Some TypeError else None | None => None end.
Definition only (x : id) : trouble := fun _ _ n => if String.eqb n x then Some TypeError else None.
Definition no_trouble : trouble := fun _ _ _ => None.
Definition rtree (bad : trouble) (o : mop) (x : viewed) : viewed :=
  let '(t, b, s) := x in let '(t', s', _) := r_call keep b bad o t s in (t', b, s').
Definition rresult (bad : trouble) (o : mop) (x : viewed) : res unit := let '(t, b, s) := x in snd (r_call keep b bad o t s).

(** The diamond in a flat view; the data of b becomes 7; z comes below b. *)
Definition rflat0 : viewed := opened keep vtree lbank (Some "v") ["work"; "flat"].
Definition rflat1 : viewed := rtree sevens (SetData "b" 7) rflat0.
Definition rflat2 : viewed := rtree sevens (put "z" 1 (Some "b")) rflat1.

Lemma troubled_rtree : forall bad o x, troubled_flat keep x -> any_fresh (fst (fst x)) o -> no_clashing_add (snd x) o -> troubled_flat keep (rtree bad o x).
Proof.
  intros bad o [[t b] s] H F N. unfold rtree. destruct (r_call keep b bad o t s) as [[t' s'] r] eqn:E. eapply troubled_tree; eauto.
Qed.
Lemma rflat_troubled : troubled_flat keep rflat1 /\ troubled_flat keep rflat2.
Proof.
  assert (H1 : troubled_flat keep rflat1).
  { apply troubled_rtree; [|exact I|exact I]. apply troubled_open; [apply vtree_calm|apply unreserved; reflexivity|].
    exists "flat", (mkFilt all_nodes (Some (mkParams false true 0))), (mkParams false true 0). vm_compute. intuition. }
  split; [exact H1|]. apply troubled_rtree; [exact H1|simpl; constructor|vm_compute; intuition discriminate].
Qed.
Lemma rflat_shapes : rresult sevens (SetData "b" 7) rflat0 = Err TypeError /\ rresult sevens (put "z" 1 (Some "b")) rflat1 = Err TypeError /\
  rresult sevens (SetData "d" 0) rflat2 = Ok tt /\ rresult sevens (SetData "d" 7) rflat2 = Err TypeError /\
  view_all_nodes (snd rflat2) = ["a"; "b"; "d"; "z"] /\ pars (snd rflat2) "z" = [] /\ pars (snd rflat2) "d" = [froot (snd rflat2)].
Proof. vm_compute. auto 10. Qed.
Lemma rflat_tree : fst (fst rflat2) = hist (vtree_ops ++ [SetData "b" 7; put "z" 1 (Some "b")]).
Proof. vm_compute. reflexivity. Qed.
Lemma rflat_flat : flattened (snd (fst rflat2)) (filters (snd rflat2)).
Proof.
  exists "flat", (mkFilt all_nodes (Some (mkParams false true 0))), (mkParams false true 0). split; [vm_compute; auto|].
  split; [vm_compute; reflexivity|]. split; reflexivity.
Qed.
Lemma rflat_refilters : let '(t, b, s) := rflat2 in snd (r_refilter keep b sevens t s) = Err TypeError /\ snd (r_refilter keep b no_trouble t s) = Ok tt /\
  view_all_nodes (fst (r_refilter keep b no_trouble t s)) = ["a"; "b"; "d"; "z"].
Proof. vm_compute. auto. Qed.

Lemma rflat_case : let '(t, b, s) := rflat2 in
  troubled_flat keep (t, b, s) /\ view_all_nodes s = ["a"; "b"; "d"; "z"] /\ pars s "z" = [] /\ pars s "d" = [froot s].
Proof.
  destruct rflat_troubled as (_ & H). destruct rflat_shapes as (_ & _ & _ & _ & H1 & H2 & H3). destruct rflat2 as [[t b] s]. auto.
Qed.
Lemma rflat_calls : let '(t, b, s) := rflat2 in
  troubled_flat keep (t, b, s) /\ (any_fresh t (SetData "d" 0) /\ no_clashing_add s (SetData "d" 0) /\ snd (r_call keep b sevens (SetData "d" 0) t s) = Ok tt) /\
  any_fresh t (SetData "d" 7) /\ no_clashing_add s (SetData "d" 7) /\ snd (r_call keep b sevens (SetData "d" 7) t s) = Err TypeError.
Proof.
  destruct rflat_troubled as (_ & H). destruct rflat_shapes as (_ & _ & H1 & H2 & _). destruct rflat2 as [[t b] s].
  split; auto. split; [split; [exact I|split; [exact I|exact H1]]|]. split; [exact I|]. split; [exact I|exact H2].
Qed.
Lemma rflat_events : let '(t, b, s) := rflat2 in let o := SetData "d" 0 in
  r_call keep b sevens o t s = (after o t, snd (fst (r_call keep b sevens o t s)), Ok tt) /\ map ev_id (events o t) = ["d"] /\
  In "d" (view_all_nodes s) /\ ~ In "d" (view_all_nodes (snd (fst (r_call keep b sevens o t s)))).
Proof. vm_compute. intuition discriminate. Qed.
(** A call that works, though a filter would raise for another node. *)
Lemma rflat_silent : let '(t, b, s) := rflat2 in let o := SetData "d" 0 in
  r_call keep b sevens o t s = (after o t, snd (fst (r_call keep b sevens o t s)), Ok tt) /\ sevens "work" t "b" = Some TypeError /\ view_all_nodes s = ["a"; "b"; "d"; "z"] /\ view_all_nodes (snd (fst (r_call keep b sevens o t s))) = ["a"; "b"; "z"].
Proof. vm_compute. auto. Qed.
Lemma rflat_announced : let '(t, b, s) := rflat2 in let o := SetData "d" 0 in
  troubled_flat keep (t, b, s) /\ any_fresh t o /\ no_clashing_add s o /\
  r_call keep b sevens o t s = (after o t, snd (fst (r_call keep b sevens o t s)), Ok tt) /\ map ev_id (events o t) = ["d"] /\
  In "d" (view_all_nodes s) /\ ~ In "d" (view_all_nodes (snd (fst (r_call keep b sevens o t s)))).
Proof.
  destruct rflat_troubled as (_ & H). pose proof rflat_events as H1. destruct rflat2 as [[t b] s]. split; auto. split; [exact I|]. split; [exact I|exact H1].
Qed.
Lemma rflat_refilter : let '(t, b, s) := rflat2 in
  troubled_flat keep (t, b, s) /\ reach calm t /\ flattened b (filters s) /\ untroubled no_trouble t (filters s) /\
  snd (r_refilter keep b sevens t s) = Err TypeError /\ view_all_nodes (fst (r_refilter keep b no_trouble t s)) = ["a"; "b"; "d"; "z"].
Proof.
  destruct rflat_troubled as (_ & H). pose proof rflat_refilters as H1. pose proof rflat_flat as H2. pose proof rflat_tree as H3.
  destruct rflat2 as [[t b] s]. cbn [fst snd] in *. split; auto. split; [rewrite H3; apply run_calm; reflexivity|]. split; auto.
  split; [intros name n _ _; reflexivity|]. destruct H1 as (A & _ & B). auto.
Qed.

(** A node with two children in a view that is not flat. The data of c becomes 0, and
    the filter raises for c; the data of a becomes 0, and the filter raises for b. *)
Definition fan_ops : list mop := [put "a" 1 None; put "b" 1 (Some "a"); put "c" 1 (Some "a")].
Definition fan : mtree := hist fan_ops.
Definition rfan0 : viewed := opened keep fan vbank (Some "v") ["work"].
Definition rfan1 : viewed := rtree (only "c") (SetData "c" 0) rfan0.
Definition rfan2 : viewed := rtree (only "b") (SetData "a" 0) rfan1.
Lemma rfan0_viewing : viewing keep rfan0.
Proof.
  constructor. split; [apply run_calm; reflexivity|]. split; [reflexivity|]. split.
  - intros x Hx. simpl in Hx. repeat destruct Hx as [<-|Hx]; try reflexivity. destruct Hx.
  - split; [apply vbank_local|]. split; [reflexivity|]. vm_compute. repeat constructor; simpl; intuition discriminate.
Qed.
Lemma rfan_supported : supported rfan0 (VTree (SetData "c" 0)) /\ supported rfan1 (VTree (SetData "a" 0)).
Proof. split; apply supportedb_ok; vm_compute; reflexivity. Qed.
Lemma rfan_tree : fst (fst rfan2) = hist (fan_ops ++ [SetData "c" 0; SetData "a" 0]).
Proof. vm_compute. reflexivity. Qed.
Lemma rfan_shape : kids (snd rfan2) "a" = ["b"; "c"] /\ is_displayed (snd rfan2) "c" = false /\ pars (snd rfan2) "b" = [] /\ pars (snd rfan2) "c" = [].
Proof. vm_compute. auto. Qed.
Lemma torn_unsound : forall s, kids s "a" = ["b"; "c"] -> pars s "b" = [] -> ~ sound s.
Proof.
  intros s H1 H2 S. assert (H : In "a" (pars s "b")) by (apply (so_sym _ S); rewrite H1; left; auto). rewrite H2 in H. destruct H.
Qed.
Lemma rfan_unsound : ~ sound (snd rfan2).
Proof. destruct rfan_shape as (H1 & _ & H2 & _). exact (torn_unsound _ H1 H2). Qed.
Lemma rfan_results : let '(t, b, s) := rfan0 in r_call keep b (only "c") (SetData "c" 0) t s = (fst (fst rfan1), snd rfan1, Err TypeError) /\
  r_call keep b (only "b") (SetData "a" 0) (fst (fst rfan1)) (snd rfan1) = (fst (fst rfan2), snd rfan2, Err TypeError).
Proof. vm_compute. auto. Qed.
Lemma rfan_forever : forall b bad names, snd (r_refilter keep b bad (fst (fst rfan2)) (set_filters names (snd rfan2))) = Err KeyError.
Proof. intros b bad names. vm_compute. reflexivity. Qed.
Lemma rfan_case : let '(t, b, s) := rfan0 in let '(t1, _, s1) := rfan1 in let '(t2, _, s2) := rfan2 in
  viewing keep (t, b, s) /\ supported (t, b, s) (VTree (SetData "c" 0)) /\ supported (t1, b, s1) (VTree (SetData "a" 0)) /\
  r_call keep b (only "c") (SetData "c" 0) t s = (t1, s1, Err TypeError) /\
  r_call keep b (only "b") (SetData "a" 0) t1 s1 = (t2, s2, Err TypeError) /\
  reach calm t2 /\ ~ sound s2 /\ forall b' bad names, snd (r_refilter keep b' bad t2 (set_filters names s2)) = Err KeyError.
Proof.
  pose proof rfan0_viewing as H1. destruct rfan_supported as [H2 H3]. pose proof rfan_results as H4. pose proof rfan_tree as H5. pose proof rfan_unsound as H6.
  pose proof rfan_forever as H7. assert (Eb : snd (fst rfan1) = snd (fst rfan0)) by (vm_compute; reflexivity).
  destruct rfan0 as [[t b] s]. destruct rfan1 as [[t1 b1] s1]. destruct rfan2 as [[t2 b2] s2]. cbn [fst snd] in *. subst b1. destruct H4 as [H4 H4'].
  split; auto. split; auto. split; auto. split; auto. split; auto. split; [rewrite H5; apply run_calm; reflexivity|]. auto.
Qed.
Lemma rfan_refuted : exists ord t b s bad1 o1 bad2 o2 t1 s1 t2 s2 e1 e2, (forall k l, Permutation (ord k l) l) /\
  viewing ord (t, b, s) /\ supported (t, b, s) (VTree o1) /\ supported (t1, b, s1) (VTree o2) /\
  r_call ord b bad1 o1 t s = (t1, s1, Err e1) /\ r_call ord b bad2 o2 t1 s1 = (t2, s2, Err e2) /\
  reach calm t2 /\ ~ sound s2 /\ forall b' bad names, snd (r_refilter ord b' bad t2 (set_filters names s2)) = Err KeyError.
Proof.
  pose proof rfan_case as H. destruct rfan0 as [[t b] s]. destruct rfan1 as [[t1 b1] s1]. destruct rfan2 as [[t2 b2] s2].
  exists keep, t, b, s, (only "c"), (SetData "c" 0), (only "b"), (SetData "a" 0), t1, s1, t2, s2, TypeError, TypeError. split; [apply keep_perm|exact H].
Qed.

(** The first of these calls leaves the view as it was. *)
Lemma rfan_first : let '(t, b, s) := rfan0 in let o := SetData "c" 0 in exists ev, events o t = [ev] /\ ev_id ev = "c" /\ ev_id ev <> froot s /\
  evaluated b (only "c") (ev_tree ev) (filters s) (ev_id ev) = Err TypeError /\ In "c" (view_all_nodes s).
Proof. vm_compute. eexists. intuition discriminate. Qed.
Lemma rfan_untroubled : let '(t, b, s) := rfan0 in let o := SetData "b" 0 in
  Forall (fun e => untroubled sevens (ev_tree e) (filters s)) (events o t) /\ length (events o t) = 1 /\ sevens "work" (after (SetData "b" 7) t) "b" = Some TypeError.
Proof.
  assert (H : forallb (fun e => forallb (fun nd => negb (Nat.eqb (data (snd nd)) 7)) (nodes (ev_tree e))) (events (SetData "b" 0) (fst (fst rfan0))) = true) by (vm_compute; reflexivity).
  assert (H' : length (events (SetData "b" 0) (fst (fst rfan0))) = 1 /\ sevens "work" (after (SetData "b" 7) (fst (fst rfan0))) "b" = Some TypeError) by (vm_compute; auto).
  destruct rfan0 as [[t b] s]. cbn [fst] in *. split; auto. apply Forall_forall. intros e He name n _ _. rewrite forallb_forall in H. specialize (H e He).
  rewrite forallb_forall in H. unfold sevens. destruct (dget n (nodes (ev_tree e))) as [nd|] eqn:E; auto. apply dget_In_pair in E. specialize (H _ E). cbn [snd] in H.
  destruct (Nat.eqb (data nd) 7); [discriminate|]. rewrite andb_false_r. auto.
Qed.
