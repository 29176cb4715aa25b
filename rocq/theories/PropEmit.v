(** Property theorems about clients of a view that raise. *)
From Coq Require Import Permutation.
From Verif Require Import Base MainTree Spec Filters FTree FEmit SpecApi SpecView SpecViewing SpecLoose SpecEmit FeThm Witness ApiWitness ViewWitness EmitCases.

(** C81. If no client raises at the signals that a call sends, the call is the one
    without such clients. *)
Theorem C81_same : forall bad ord b o t s, borne bad (length (sent s)) (news s (snd (fst (view_call ord (VTree o) (t, b, s))))) ->
  snd (fst (e_call bad ord b o t s)) = snd (fst (view_call ord (VTree o) (t, b, s))) /\ snd (e_call bad ord b o t s) = snd (view_call ord (VTree o) (t, b, s)) /\
  (snd (e_call bad ord b o t s) = Ok tt -> fst (fst (e_call bad ord b o t s)) = after o t).
Proof. exact e_same. Qed.
Print Assumptions C81_same.
Example C81_same_example : let '(t, b, s) := efan0 in let o := SetData "b" 0 in
  borne (at_node "c") (length (sent s)) (news s (snd (fst (view_call keep (VTree o) (t, b, s))))) /\
  In (SDeleted "b" ["a"; "b"]) (news s (snd (fst (view_call keep (VTree o) (t, b, s))))).
Proof. exact efan_same. Qed.

(** C81. If a client raises, the exception reaches the caller, and the clients got
    exactly the signals up to that one. *)
Theorem C81_told : forall bad ord b o t s l x l2 e, news s (snd (fst (view_call ord (VTree o) (t, b, s)))) = l ++ x :: l2 ->
  borne bad (length (sent s)) l -> bad (length (sent s) + length l) x = Some e ->
  exists t1 s1, e_call bad ord b o t s = (t1, s1, Err e) /\ news s s1 = l ++ [x].
Proof. exact e_told. Qed.
Print Assumptions C81_told.
Example C81_told_example : let '(t, b, s) := efan0 in let l := [SDeleted "c" ["a"; "c"]; SAdded "c" ["c"]; SModified "c" ["c"]; SDeleted "b" ["a"; "b"]] in
  exists l2, news s (snd (fst (view_call keep (VTree (SetData "a" 0)) (t, b, s)))) = l ++ SAdded "b" ["b"] :: l2 /\ l2 <> [] /\
  borne (at_node "b") (length (sent s)) l /\ at_node "b" (length (sent s) + length l) (SAdded "b" ["b"]) = Some TypeError.
Proof. exact efan_told. Qed.

(** C81. The same for a refresh of the view. *)
Theorem C81_refresh : forall bad ord b t s,
  (borne bad (length (sent s)) (news s (fst (refilter ord b t s))) -> e_refilter bad ord b t s = refilter ord b t s) /\
  forall l x l2 e, news s (fst (refilter ord b t s)) = l ++ x :: l2 -> borne bad (length (sent s)) l -> bad (length (sent s) + length l) x = Some e ->
    exists s1, e_refilter bad ord b t s = (s1, Err e) /\ news s s1 = l ++ [x].
Proof. exact e_refresh. Qed.
Print Assumptions C81_refresh.
Example C81_refresh_example : let '(t, b, s) := efan0 in
  borne (at_node "d") (length (sent s)) (news s (fst (refilter keep b t s))) /\
  exists l2, news s (fst (refilter keep b t s)) = [SDeleted "c" ["a"; "c"]; SDeleted "b" ["a"; "b"]; SDeleted "a" ["a"]] ++ SAdded "a" ["a"] :: l2 /\
  borne (at_node "a") (length (sent s)) [SDeleted "c" ["a"; "c"]; SDeleted "b" ["a"; "b"]; SDeleted "a" ["a"]] /\ length l2 = 6.
Proof. exact efan_refresh. Qed.

(** C81. A flat view whose clients raise when nodes are added or modified is consistent
    all the time, its clients know its paths, and each node is below the root or has no
    place. What is missing: clients that raise otherwise (see [C81_refuted] and
    [C81_action_refuted]) and views that are not flat (see [C81_deep_refuted]). *)
Theorem C81_flat_consistent_partial : forall ord, (forall k l, Permutation (ord k l) l) ->
  forall t b s, upset_flat ord (t, b, s) ->
  sound s /\ mirrored s /\ forall n, In n (view_all_nodes s) -> pars s n = [] \/ pars s n = [froot s].
Proof. exact e_consistent. Qed.
Print Assumptions C81_flat_consistent_partial.
Example C81_flat_consistent_example : let '(t, b, s) := eflat3 in
  upset_flat keep (t, b, s) /\ view_all_nodes s = ["a"; "b"; "d"; "z"] /\ pars s "z" = [froot s] /\
  skipn 8 (sent s) = [SModified "b" ["b"]; SRun "z" 5; SAdded "z" ["z"]; SModified "b" ["b"]].
Proof. exact eflat_case. Qed.

(** C81. A call on the tree of such a view works, or raises what a client raised at the
    last signal. The same is missing. *)
Theorem C81_flat_errors_partial : forall ord, (forall k l, Permutation (ord k l) l) ->
  forall t b s bad o, upset_flat ord (t, b, s) -> gentle bad -> any_fresh t o -> no_clashing_add s o ->
  (exists s', e_call bad ord b o t s = (after o t, s', Ok tt)) \/
  exists s' ev e, e_call bad ord b o t s = (ev_tree ev, s', Err e) /\ In ev (events o t) /\ burst bad (length (sent s)) (news s s') e.
Proof. exact e_errors. Qed.
Print Assumptions C81_flat_errors_partial.
Example C81_flat_errors_example : let '(t, b, s) := eflat3 in
  upset_flat keep (t, b, s) /\ gentle (at_node "b") /\
  (any_fresh t (SetData "d" 0) /\ no_clashing_add s (SetData "d" 0) /\ snd (e_call (at_node "b") keep b (SetData "d" 0) t s) = Ok tt) /\
  any_fresh t (SetData "b" 2) /\ no_clashing_add s (SetData "b" 2) /\ snd (e_call (at_node "b") keep b (SetData "b" 2) t s) = Err TypeError.
Proof. exact eflat_calls. Qed.

(** C81. After a call that worked, the node announced last is displayed exactly if it
    satisfied the filters at that moment. The same is missing. *)
Theorem C81_flat_announced_partial : forall ord, (forall k l, Permutation (ord k l) l) ->
  forall t b s bad o s' l e, upset_flat ord (t, b, s) -> gentle bad -> any_fresh t o -> no_clashing_add s o ->
  e_call bad ord b o t s = (after o t, s', Ok tt) -> events o t = l ++ [e] -> ev_id e <> froot s -> ev_id e <> "" ->
  (In (ev_id e) (view_all_nodes s') <-> In (ev_id e) (satisfying b (ev_tree e) (filters s))).
Proof. exact e_announced. Qed.
Print Assumptions C81_flat_announced_partial.
Example C81_flat_announced_example : let '(t, b, s) := eflat3 in let o := SetData "d" 0 in
  upset_flat keep (t, b, s) /\ gentle (at_node "b") /\ any_fresh t o /\ no_clashing_add s o /\
  e_call (at_node "b") keep b o t s = (after o t, snd (fst (e_call (at_node "b") keep b o t s)), Ok tt) /\ map ev_id (events o t) = ["d"] /\
  In "d" (view_all_nodes s) /\ ~ In "d" (view_all_nodes (snd (fst (e_call (at_node "b") keep b o t s)))).
Proof. exact eflat_announced. Qed.

(** C81. A refresh of such a view brings it up to date, or raises what a client raised
    at the last signal. The same is missing. *)
Theorem C81_flat_recovers_partial : forall ord, (forall k l, Permutation (ord k l) l) ->
  forall t b s bad, upset_flat ord (t, b, s) -> gentle bad -> reach calm t -> flattened b (filters s) ->
  (exists s', e_refilter bad ord b t s = (s', Ok tt) /\ uptodate t b s') \/
  exists s' e, e_refilter bad ord b t s = (s', Err e) /\ burst bad (length (sent s)) (news s s') e.
Proof. exact e_recovers. Qed.
Print Assumptions C81_flat_recovers_partial.
Example C81_flat_recovers_example : let '(t, b, s) := eflat3 in
  upset_flat keep (t, b, s) /\ gentle (at_node "a") /\ gentle (at_node "c") /\ reach calm t /\ flattened b (filters s) /\
  snd (e_refilter (at_node "a") keep b t s) = Err TypeError /\ snd (e_refilter (at_node "c") keep b t s) = Ok tt.
Proof. exact eflat_recovers. Qed.

(** C81. A client that raises when a node is deleted, once, makes a view (even a flat
    one) inconsistent. From then on no refresh works, whatever the filters. *)
Theorem C81_refuted : exists ord t b s bad o t1 s1 e, (forall k l, Permutation (ord k l) l) /\ upset_flat ord (t, b, s) /\ any_fresh t o /\ no_clashing_add s o /\
  (forall k x, bad k x <> None -> exists n q, x = SDeleted n q) /\
  e_call bad ord b o t s = (t1, s1, Err e) /\ reach calm t1 /\ ~ sound s1 /\
  (forall b' names, snd (refilter ord b' t1 (set_filters names s1)) = Err KeyError) /\
  forall b' bad' names, snd (e_refilter bad' ord b' t1 (set_filters names s1)) <> Ok tt.
Proof. exact bflat_refuted. Qed.
Print Assumptions C81_refuted.

(** C81. In a view that is not flat, a client that raises when a node is added, once,
    makes the view inconsistent, and the refresh after it deletes paths that the
    clients do not know. *)
Theorem C81_deep_refuted : exists ord t b s bad o t1 s1 s2 e, (forall k l, Permutation (ord k l) l) /\ viewing ord (t, b, s) /\ supported (t, b, s) (VTree o) /\ gentle bad /\
  e_call bad ord b o t s = (t1, s1, Err e) /\ ~ sound s1 /\ refilter ord b t1 s1 = (s2, Ok tt) /\ ~ mirrored s2.
Proof. exact efan_refuted. Qed.
Print Assumptions C81_deep_refuted.

(** C81. A queued action that raises keeps the clients (even of a flat view) from
    hearing of the node; a refresh deletes its path all the same. *)
Theorem C81_action_refuted : exists ord t b s bad o t1 s1 s2 e, (forall k l, Permutation (ord k l) l) /\ upset_flat ord (t, b, s) /\ any_fresh t o /\ no_clashing_add s o /\
  (forall k x, bad k x <> None -> exists n a, x = SRun n a) /\
  e_call bad ord b o t s = (t1, s1, Err e) /\ ~ mirrored s1 /\ refilter ord b t1 s1 = (s2, Ok tt) /\ ~ mirrored s2.
Proof. exact aflat_refuted. Qed.
Print Assumptions C81_action_refuted.
