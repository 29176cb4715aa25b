(** Property theorems about filter functions that raise. *)
From Coq Require Import Permutation.
From Verif Require Import Base MainTree Spec Filters FTree FRaise SpecApi SpecView SpecViewing SpecLoose SpecRaise FrThm Witness ApiWitness ViewWitness RaiseCases.

(** C80. A call during which no filter happens to raise does to the view what it does
    when no filter can raise. *)
Theorem C80_silent : forall ord t b s bad o t' s', r_call ord b bad o t s = (t', s', Ok tt) ->
  view_call ord (VTree o) (t, b, s) = (t', b, s', Ok tt).
Proof. exact x_silent. Qed.
Print Assumptions C80_silent.
Example C80_silent_example : let '(t, b, s) := rflat2 in let o := SetData "d" 0 in
  r_call keep b sevens o t s = (after o t, snd (fst (r_call keep b sevens o t s)), Ok tt) /\ sevens "work" t "b" = Some TypeError /\
  view_all_nodes s = ["a"; "b"; "d"; "z"] /\ view_all_nodes (snd (fst (r_call keep b sevens o t s))) = ["a"; "b"; "z"].
Proof. exact rflat_silent. Qed.

(** C80. If no applied filter raises for a node of the tree, then this is the call
    without such filters, with its errors. *)
Theorem C80_untroubled : forall ord t b s bad o, Forall (fun e => untroubled bad (ev_tree e) (filters s)) (events o t) ->
  snd (fst (r_call ord b bad o t s)) = snd (fst (view_call ord (VTree o) (t, b, s))) /\
  snd (r_call ord b bad o t s) = snd (view_call ord (VTree o) (t, b, s)).
Proof. exact x_untroubled. Qed.
Print Assumptions C80_untroubled.
Example C80_untroubled_example : let '(t, b, s) := rfan0 in let o := SetData "b" 0 in
  Forall (fun e => untroubled sevens (ev_tree e) (filters s)) (events o t) /\ length (events o t) = 1 /\ sevens "work" (after (SetData "b" 7) t) "b" = Some TypeError.
Proof. exact rfan_untroubled. Qed.

(** C80. If the filters raise for the first node the tree announces, the view stays as
    it was, no signal is sent, and the exception reaches the caller. *)
Theorem C80_first : forall ord t b s bad o ev rest e, events o t = ev :: rest -> ev_id ev <> froot s ->
  evaluated b bad (ev_tree ev) (filters s) (ev_id ev) = Err e -> r_call ord b bad o t s = (ev_tree ev, s, Err e).
Proof. exact x_first. Qed.
Print Assumptions C80_first.
Example C80_first_example : let '(t, b, s) := rfan0 in let o := SetData "c" 0 in exists ev, events o t = [ev] /\ ev_id ev = "c" /\ ev_id ev <> froot s /\
  evaluated b (only "c") (ev_tree ev) (filters s) (ev_id ev) = Err TypeError /\ In "c" (view_all_nodes s).
Proof. exact rfan_first. Qed.

(** C80. A flat view whose filters raise whenever they like is consistent all the time,
    its clients know its paths, and each node is below the root or has no place. What
    is missing: views that are not flat (see [C80_refuted]). *)
Theorem C80_flat_consistent_partial : forall ord, (forall k l, Permutation (ord k l) l) ->
  forall t b s, troubled_flat ord (t, b, s) ->
  sound s /\ mirrored s /\ forall n, In n (view_all_nodes s) -> pars s n = [] \/ pars s n = [froot s].
Proof. exact x_consistent. Qed.
Print Assumptions C80_flat_consistent_partial.
Example C80_flat_consistent_example : let '(t, b, s) := rflat2 in
  troubled_flat keep (t, b, s) /\ view_all_nodes s = ["a"; "b"; "d"; "z"] /\ pars s "z" = [] /\ pars s "d" = [froot s].
Proof. exact rflat_case. Qed.

(** C80. A call on the tree of such a view works, or raises what an applied filter
    raised for a node, and stops at that event. The same is missing. *)
Theorem C80_flat_errors_partial : forall ord, (forall k l, Permutation (ord k l) l) ->
  forall t b s bad o, troubled_flat ord (t, b, s) -> any_fresh t o -> no_clashing_add s o ->
  (exists s', r_call ord b bad o t s = (after o t, s', Ok tt)) \/
  exists s' ev e, r_call ord b bad o t s = (ev_tree ev, s', Err e) /\ In ev (events o t) /\ raised b bad (ev_tree ev) (filters s) e.
Proof. exact x_errors. Qed.
Print Assumptions C80_flat_errors_partial.
Example C80_flat_errors_example : let '(t, b, s) := rflat2 in
  troubled_flat keep (t, b, s) /\ (any_fresh t (SetData "d" 0) /\ no_clashing_add s (SetData "d" 0) /\ snd (r_call keep b sevens (SetData "d" 0) t s) = Ok tt) /\
  any_fresh t (SetData "d" 7) /\ no_clashing_add s (SetData "d" 7) /\ snd (r_call keep b sevens (SetData "d" 7) t s) = Err TypeError.
Proof. exact rflat_calls. Qed.

(** C80. After a call that worked, the node announced last is displayed exactly if it
    satisfied the filters at that moment. The same is missing. *)
Theorem C80_flat_announced_partial : forall ord, (forall k l, Permutation (ord k l) l) ->
  forall t b s bad o s' l e, troubled_flat ord (t, b, s) -> any_fresh t o -> no_clashing_add s o ->
  r_call ord b bad o t s = (after o t, s', Ok tt) -> events o t = l ++ [e] -> ev_id e <> froot s -> ev_id e <> "" ->
  (In (ev_id e) (view_all_nodes s') <-> In (ev_id e) (satisfying b (ev_tree e) (filters s))).
Proof. exact x_announced. Qed.
Print Assumptions C80_flat_announced_partial.
Example C80_flat_announced_example : let '(t, b, s) := rflat2 in let o := SetData "d" 0 in
  troubled_flat keep (t, b, s) /\ any_fresh t o /\ no_clashing_add s o /\
  r_call keep b sevens o t s = (after o t, snd (fst (r_call keep b sevens o t s)), Ok tt) /\ map ev_id (events o t) = ["d"] /\
  In "d" (view_all_nodes s) /\ ~ In "d" (view_all_nodes (snd (fst (r_call keep b sevens o t s)))).
Proof. exact rflat_announced. Qed.

(** C80. A refresh of such a view that raises nothing brings it up to date, and it
    raises nothing if the filters have stopped raising. The same is missing. *)
Theorem C80_flat_recovers_partial : forall ord, (forall k l, Permutation (ord k l) l) ->
  forall t b s bad, troubled_flat ord (t, b, s) -> reach calm t -> flattened b (filters s) ->
  (untroubled bad t (filters s) -> snd (r_refilter ord b bad t s) = Ok tt) /\
  forall s', r_refilter ord b bad t s = (s', Ok tt) -> uptodate t b s'.
Proof. exact x_recovers. Qed.
Print Assumptions C80_flat_recovers_partial.
Theorem C80_flat_refresh_errors_partial : forall ord, (forall k l, Permutation (ord k l) l) ->
  forall t b s bad, troubled_flat ord (t, b, s) -> reach calm t -> flattened b (filters s) ->
  exists s', r_refilter ord b bad t s = (s', Ok tt) \/ exists e, r_refilter ord b bad t s = (s', Err e) /\ raised b bad t (filters s) e.
Proof. exact x_refilter_errors. Qed.
Print Assumptions C80_flat_refresh_errors_partial.
Example C80_flat_recovers_example : let '(t, b, s) := rflat2 in
  troubled_flat keep (t, b, s) /\ reach calm t /\ flattened b (filters s) /\ untroubled no_trouble t (filters s) /\
  snd (r_refilter keep b sevens t s) = Err TypeError /\ view_all_nodes (fst (r_refilter keep b no_trouble t s)) = ["a"; "b"; "d"; "z"].
Proof. exact rflat_refilter. Qed.

(** C80. In a view that is not flat, two calls during which a filter raised leave a
    node listed below another one that is not displayed any more. From then on each
    refresh raises KeyError, whatever the filters. *)
Theorem C80_refuted : exists ord t b s bad1 o1 bad2 o2 t1 s1 t2 s2 e1 e2, (forall k l, Permutation (ord k l) l) /\
  viewing ord (t, b, s) /\ supported (t, b, s) (VTree o1) /\ supported (t1, b, s1) (VTree o2) /\
  r_call ord b bad1 o1 t s = (t1, s1, Err e1) /\ r_call ord b bad2 o2 t1 s1 = (t2, s2, Err e2) /\
  reach calm t2 /\ ~ sound s2 /\ forall b' bad names, snd (r_refilter ord b' bad t2 (set_filters names s2)) = Err KeyError.
Proof. exact rfan_refuted. Qed.
Print Assumptions C80_refuted.
