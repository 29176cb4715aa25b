(** Properties of counts that are refreshed late. *)
From Verif Require Import Base MainTree Spec Filters ViewCount SpecApi ApiWitness SpecCount CountLate CountCases.

(** C40. Whatever happened before (any filters, also ones that look at other nodes,
    parameters changed, filters applied without refresh, counts made without
    refresh), taking a filter back makes the count exact. *)
Theorem C40_unapply : forall t b v n, any_count (t, b, v) -> In n (vfilters v) ->
  let v' := fst (vc_unapply_filter b t n v) in
  snd (vc_unapply_filter b t n v) = Ok tt /\ vfilters v' = remove1 n (vfilters v) /\
  (forall x, In x (vnodes v') <-> In x (satisfying b t (vfilters v'))) /\ vc_n_nodes v' = length (satisfying b t (vfilters v')).
Proof. exact unapply_right. Qed.
Print Assumptions C40_unapply.
Example C40_unapply_example : any_count oddly /\ In "crowded" (vfilters (snd oddly)) /\ vnodes (snd oddly) = ["c"] /\
  vnodes (fst (vc_unapply_filter (snd (fst oddly)) (fst (fst oddly)) "crowded" (snd oddly))) = ["b"].
Proof. exact oddly_any. Qed.

(** C40. In such a history no call makes the count raise. *)
Theorem C40_any_silent : forall x c, any_count x -> tolerable x c -> snd (late_call c x) = Ok tt.
Proof. exact any_silent. Qed.
Print Assumptions C40_any_silent.
Example C40_any_silent_example : any_count oddly /\ tolerable oddly (LCall (CUnapply "work")).
Proof. exact (conj (proj1 oddly_any) I). Qed.

(** C40. With filters on a node's own data, a filter applied with refresh makes the
    count exact, even if it was made without refresh or has other filters that were
    applied without; *)
Theorem C40_apply : forall t b v n, late_count (t, b, v) -> has_filter b n = true -> ~ In n (vfilters v) ->
  let v' := fst (vc_apply_filter b t n true v) in
  (forall x, In x (vnodes v') <-> In x (satisfying b t (vfilters v'))) /\ vc_n_nodes v' = length (satisfying b t (vfilters v')).
Proof. exact apply_right. Qed.
Print Assumptions C40_apply.
Example C40_apply_example : late_count lately /\ has_filter (snd (fst lately)) "all" = true /\ ~ In "all" (vfilters (snd lately)) /\
  vnodes (snd lately) = ["b"] /\ vnodes (fst (vc_apply_filter (snd (fst lately)) (fst (fst lately)) "all" true (snd lately))) = ["b"; "c"].
Proof. exact lately_apply. Qed.

(** until then a count that was refreshed once may count too many nodes but misses none. *)
Theorem C40_contains : forall t b v, late_count (t, b, v) -> initialized v = true ->
  forall x, In x (satisfying b t (vfilters v)) -> In x (vnodes v).
Proof. exact late_contains. Qed.
Print Assumptions C40_contains.
Example C40_contains_example : late_count early /\ initialized (snd early) = true /\ vnodes (snd early) = ["a"; "b"] /\
  satisfying (snd (fst early)) (fst (fst early)) (vfilters (snd early)) = ["a"].
Proof. exact early_late. Qed.

(** C40 fails for a count made without refresh, *)
Theorem C40_unrefreshed_refuted : exists t b v, late_count (t, b, v) /\ vfilters v = [] /\
  vc_n_nodes v <> length (satisfying b t (vfilters v)).
Proof. exact unrefreshed. Qed.
Print Assumptions C40_unrefreshed_refuted.

(** when the data of a node called "root" changes, *)
Theorem C40_root_refuted : exists x n w, counting x /\ snd (count_call (CCall (SetData n w)) x) = Ok tt /\
  let '(t', b', v') := fst (count_call (CCall (SetData n w)) x) in
  outcome (SetData n w) (fst (fst x)) = Ok tt /\ vc_n_nodes v' <> length (satisfying b' t' (vfilters v')).
Proof. exact root_stale. Qed.
Print Assumptions C40_root_refuted.

(** and raises after an applied filter was removed from the bank. *)
Theorem C40_removed_refuted : exists x n o, counting x /\ In n (vfilters (snd x)) /\ fresh_add o /\
  outcome o (fst (fst x)) = Ok tt /\
  snd (count_call (CCall o) (fst (count_call (CBank (BRemove n)) x))) = Err AttributeError.
Proof. exact removed_raises. Qed.
Print Assumptions C40_removed_refuted.
