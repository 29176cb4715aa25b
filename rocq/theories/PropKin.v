(** Property theorems about views of nodes that are chosen by their children. *)
From Coq Require Import Permutation.
From Verif Require Import Base MainTree Spec Filters FTree SpecApi SpecView SpecViewing SpecLoose ApiWitness ViewWitness LooseCases KinThm SpecKin KinCases.

(** C79. A view that shows leaves, or what can be done (what is to be done and has no child
    that is to be done), or flat any choice by the data of a node and by its children, is
    always up to date: a node that begins or ceases to be shown because of its children is
    found by the events about them. What is missing: deletions of nodes with several
    parents, filters that depend on the data of the children in another way, and views in
    which a displayed node has a displayed child. All of these are false, see below. *)
Theorem C79_uptodate_partial : forall ord, (forall k l, Permutation (ord k l) l) ->
  forall t b s, watching ord (t, b, s) ->
  uptodate t b s /\ mirrored s /\ forall n, In n (view_all_nodes s) -> pars s n = [froot s].
Proof. exact watching_uptodate. Qed.
Print Assumptions C79_uptodate_partial.
Example C79_uptodate_example : watching keep kview5 /\ view_all_nodes (snd kview0) = ["c"; "d"] /\ view_all_nodes (snd kview1) = ["p"; "q"] /\
  view_all_nodes (snd kview2) = ["q"; "z"] /\ view_all_nodes (snd kview3) = ["c"; "d"; "z"] /\ view_all_nodes (snd kview4) = ["c"; "z"] /\
  view_all_nodes (snd kview5) = ["p"] /\ length (sent (snd kview5)) = 25.
Proof. exact (conj (proj2 (proj2 (proj2 kview_watching))) kview_shape). Qed.

(** C79. Nothing raises in such a view. *)
Theorem C79_no_error_partial : forall ord, (forall k l, Permutation (ord k l) l) ->
  forall t b s o, watching ord (t, b, s) -> calm t o -> single t o -> no_clashing_add s o ->
  snd (view_call ord (VTree o) (t, b, s)) = Ok tt.
Proof. exact watching_no_error. Qed.
Print Assumptions C79_no_error_partial.
Example C79_no_error_example : let '(t, b, s) := kview2 in let o := NewRelationship "q" "z" in
  watching keep (t, b, s) /\ calm t o /\ single t o /\ no_clashing_add s o /\ view_all_nodes s = ["q"; "z"] /\
  view_all_nodes (snd (fst (view_call keep (VTree o) (t, b, s)))) = ["z"].
Proof. exact kview_case. Qed.

(** C79. A leaf with two parents is deleted, in a view of the leaves: both parents are
    leaves now, one of them is not shown. *)
Theorem C79_delete_refuted : exists t b s o, watching keep (t, b, s) /\ calm t o /\ no_clashing_add s o /\
  let '(t', b', s', r) := view_call keep (VTree o) (t, b, s) in r = Ok tt /\ In "q" (satisfying b' t' (filters s')) /\ view_all_nodes s' = ["p"].
Proof. exact kin_delete_stale. Qed.
Print Assumptions C79_delete_refuted.

(** C79. The filter looks at the data of the children, the view is flat; a displayed child
    gets other data and the parent should be shown now, but is not. *)
Theorem C79_data_refuted : exists t b names n v, reach calm t /\ no_clash t (new_ft (Some "v")) /\ flattened b names /\
  (forall name f, In name names -> get_filter b name = Some f -> familial (f_fun f)) /\
  let '(t', b', s', r) := view_call keep (VTree (SetData n v)) (opened keep t b (Some "v") names) in
    r = Ok tt /\ In "p" (satisfying b' t' (filters s')) /\ view_all_nodes s' = ["c"].
Proof. exact kin_data_stale. Qed.
Print Assumptions C79_data_refuted.

(** C79. The filter looks at the number of children, the view is not flat: a second child
    comes, the parent is shown with it, but the first child stays at the top. *)
Theorem C79_structure_refuted : exists t b names o, reach calm t /\ no_clash t (new_ft (Some "v")) /\ ~ flattened b names /\
  (forall name f, In name names -> get_filter b name = Some f -> near (f_fun f)) /\ calm t o /\ single t o /\
  let '(t', b', s', r) := view_call keep (VTree o) (opened keep t b (Some "v") names) in
    r = Ok tt /\ view_all_nodes s' = ["c"; "n"; "p"] /\ shown_parents t' (view_all_nodes s') (froot s') "c" = ["p"] /\ pars s' "c" = [froot s'] /\ pars s' "n" = ["p"].
Proof. exact kin_structure_stale. Qed.
Print Assumptions C79_structure_refuted.
