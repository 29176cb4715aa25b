(** Properties of callbacks, the filter bank, counts and named views. *)
From Coq Require Import Ascii.
From Verif Require Import Base MainTree Spec Callbacks Filters FTree ViewCount Api SpecApi ApiFacts CountFacts NamedFacts ApiWitness.

(** C15. A registration gets a key that is not in use for the event, and the
    function is called after those registered before; other events keep theirs. *)
Theorem C15_register : forall (F : Type) (r : registry F) ev f, registered r ->
  let r' := fst (register ev f r) in let k := snd (register ev f r) in
  ~ In k (map fst (handlers_of ev r)) /\
  handlers_of ev r' = handlers_of ev r ++ [(k, f)] /\ called ev r' = called ev r ++ [f] /\
  forall ev', ev' <> ev -> handlers_of ev' r' = handlers_of ev' r.
Proof. exact @register_exact. Qed.
Print Assumptions C15_register.
Example C15_example : registered reg3 /\ handlers_of "node-added" reg3 = [(1, 20)] /\
  snd (register "node-added" 40 reg3) = 0 /\ called "node-added" (fst (register "node-added" 40 reg3)) = [20; 40].
Proof. exact reg3_example. Qed.

(** C15. A deregistration removes what has that key, of which there is at most
    one, for that event. *)
Theorem C15_deregister : forall (F : Type) (r : registry F) ev k, registered r ->
  handlers_of ev (deregister ev k r) = filter (fun x => negb (Nat.eqb (fst x) k)) (handlers_of ev r) /\
  (forall ev', ev' <> ev -> handlers_of ev' (deregister ev k r) = handlers_of ev' r) /\
  NoDup (map fst (handlers_of ev r)).
Proof. exact @deregister_exact. Qed.
Print Assumptions C15_deregister.
Example C15_deregister_example : registered reg3 /\ called "node-added" (deregister "node-added" 1 reg3) = [] /\
  called "node-deleted" (deregister "node-added" 1 reg3) = [30] /\ called "node-added" (deregister "node-added" 7 reg3) = [20].
Proof. exact reg3_out. Qed.

(** C40. A count shows the nodes that satisfy its filters, after any calls. What is
    missing: an applied filter is not removed from the bank and keeps its parameters,
    and data of a node called "root" does not change. *)
Theorem C40_count_partial : forall t b v, counting (t, b, v) ->
  (forall x, In x (vnodes v) <-> In x (satisfying b t (vfilters v))) /\
  vc_n_nodes v = length (satisfying b t (vfilters v)).
Proof. exact count_is. Qed.
Print Assumptions C40_count_partial.
Example C40_example : counting ended /\ vnodes (snd ended) = ["c"; "b"] /\ notified (snd ended) = [5; 5; 5].
Proof. exact ended_example. Qed.

(** C40. None of these calls makes the count raise. What is missing: as above. *)
Theorem C40_silent_partial : forall x c, counting x -> countable x c -> snd (count_call c x) = Ok tt.
Proof. exact count_silent. Qed.
Print Assumptions C40_silent_partial.
Example C40_silent_example : counting ended /\ countable ended (CUnapply "work").
Proof. exact ended_next. Qed.

(** C40 fails when an applied filter is given other parameters. *)
Theorem C40_parameters_refuted : exists t b v n d, counting (t, b, v) /\ In n (vfilters v) /\
  snd (count_call (CBank (BParam n (Some d))) (t, b, v)) = Ok tt /\
  let '(t', b', v') := fst (count_call (CBank (BParam n (Some d))) (t, b, v)) in
  vc_n_nodes v' <> length (satisfying b' t' (vfilters v')).
Proof. exact stale_count. Qed.
Print Assumptions C40_parameters_refuted.

(** C41. An event makes the callbacks run once for each node that enters or
    leaves the count, and not at all otherwise. *)
Theorem C41_events : forall t b v e, counting (t, b, v) ->
  (ev_kind e <> EDeleted -> has_node (ev_tree e) (ev_id e) = true) ->
  let v' := fst (vc_event b e v) in
  notified v' = notified v ++ times (length (one_sided (vnodes v) (vnodes v'))) (callbacks v).
Proof. exact tells_event. Qed.
Print Assumptions C41_events.
Example C41_example : counting ended /\
  notified (fst (vc_event (snd (fst ended)) (Ev EDeleted "b" (fst (fst ended))) (snd ended))) = [5; 5; 5; 5].
Proof. exact (conj ended_counting eq_refl). Qed.

(** C41. The same for the changes of filters. *)
Theorem C41_filters : forall t b v n, counting (t, b, v) ->
  let v1 := fst (vc_apply_filter b t n true v) in
  let v2 := fst (vc_unapply_filter b t n v) in
  notified v1 = notified v ++ times (length (one_sided (vnodes v) (vnodes v1))) (callbacks v) /\
  notified v2 = notified v ++ times (length (one_sided (vnodes v) (vnodes v2))) (callbacks v).
Proof. exact tells_filters. Qed.
Print Assumptions C41_filters.
Example C41_filters_example : counting ended /\ notified (snd (fst (count_call (CUnapply "work") ended))) = [5; 5; 5].
Proof. exact (conj ended_counting eq_refl). Qed.

(** C42 fails: unregister_cllbck raises AttributeError and removes nothing. *)
Theorem C42_refuted : exists v f, In f (callbacks v) /\ snd (vc_unregister f v) = Err AttributeError /\
  In f (callbacks (fst (vc_unregister f v))).
Proof. exact unregister_raises. Qed.
Print Assumptions C42_refuted.

(** C43. Lookups. What is missing: names that begin with an exclamation mark, for
    which it is false. *)
Theorem C43_lookup_partial : forall l, plain_names l -> forall n, get_filter (bank_calls l) n = meaning (rev l) n.
Proof. exact bank_lookup. Qed.
Print Assumptions C43_lookup_partial.
Example C43_example : plain_names script /\
  meaning (rev script) "work" = Some (mkFilt above_zero (Some (mkParams true false 0))) /\ meaning (rev script) "all" = None.
Proof. exact (conj script_plain script_meaning). Qed.

(** C43. The listing has each known name once. What is missing: as above. *)
Theorem C43_listing_partial : forall l, plain_names l ->
  NoDup (list_filters (bank_calls l)) /\
  forall n, In n (list_filters (bank_calls l)) <-> meaning (rev l) n <> None.
Proof. exact bank_listing. Qed.
Print Assumptions C43_listing_partial.
Example C43_listing_example : plain_names script /\ list_filters (bank_calls script) = ["work"].
Proof. exact (conj script_plain eq_refl). Qed.

(** C43. The answers of add_filter, remove_filter and has_filter. What is missing:
    as above. *)
Theorem C43_add_partial : forall l n f d, plain_names l -> bang n = false ->
  snd (add_filter n f d (bank_calls l)) = Ok (match meaning (rev l) n with None => true | Some _ => false end).
Proof. exact bank_add. Qed.
Print Assumptions C43_add_partial.
Example C43_add_example : plain_names script /\ bang "work" = false /\
  snd (add_filter "work" all_nodes None (bank_calls script)) = Ok false.
Proof. exact (conj script_plain (conj eq_refl eq_refl)). Qed.

Theorem C43_remove_partial : forall l n, plain_names l ->
  snd (remove_filter n (bank_calls l)) = match meaning (rev l) n with None => false | Some _ => true end.
Proof. exact bank_remove. Qed.
Print Assumptions C43_remove_partial.
Example C43_remove_example : plain_names script /\ snd (remove_filter "work" (bank_calls script)) = true.
Proof. exact (conj script_plain eq_refl). Qed.

Theorem C43_has_partial : forall l, plain_names l ->
  forall n, has_filter (bank_calls l) n = true <-> meaning (rev l) n <> None.
Proof. exact bank_has. Qed.
Print Assumptions C43_has_partial.
Example C43_has_example : plain_names script /\ has_filter (bank_calls script) "all" = false.
Proof. exact (conj script_plain eq_refl). Qed.

(** C43 fails: adding a filter whose name begins with an exclamation mark raises
    UnboundLocalError. *)
Theorem C43_refuted : exists n f d, snd (add_filter n f d empty_bank) = Err UnboundLocalError.
Proof. exact bang_raises. Qed.
Print Assumptions C43_refuted.

(** C44. With 'negate' a filter shows the nodes of the tree that it hides without.
    The function must not read that parameter itself. *)
Theorem C44_negate : forall t f n flat v,
  (forall ng, f t n (Some (mkParams ng flat v)) = f t n (Some (mkParams false flat v))) ->
  has_node t n = true ->
  filt_displayed t (mkFilt f (Some (mkParams true flat v))) n =
  negb (filt_displayed t (mkFilt f (Some (mkParams false flat v))) n).
Proof. exact negate_complement. Qed.
Print Assumptions C44_negate.
Example C44_example : has_node three "b" = true /\
  (forall ng, above_zero three "b" (Some (mkParams ng false 0)) = above_zero three "b" (Some (mkParams false false 0))) /\
  filt_displayed three (mkFilt above_zero (Some (mkParams true false 0))) "b" = true.
Proof. exact (conj eq_refl (conj (fun _ => eq_refl) eq_refl)). Qed.

(** C45. A name that was given a view keeps it, whatever happens. *)
Theorem C45_same_view : forall ord l x r i l' r', let y := sys_calls ord l new_sys in
  snd (get_viewtree ord (Some x) r y) = Ok i ->
  let y' := sys_calls ord l' (fst (get_viewtree ord (Some x) r y)) in
  get_viewtree ord (Some x) r' y' = (y', Ok i).
Proof. exact view_again. Qed.
Print Assumptions C45_same_view.
Example C45_example : let y := sys_calls keep asked new_sys in
  snd (get_viewtree keep (Some "other") true y) = Ok 4 /\ snd (get_viewtree keep (Some "tasks") true y) = Ok 1 /\
  snd (get_viewtree keep (Some "main") true y) = Ok 0.
Proof. exact asked_example. Qed.

Theorem C45_same_count : forall ord l x r i l' r', let y := sys_calls ord l new_sys in
  snd (get_viewcount (Some x) r y) = Ok i ->
  let y' := sys_calls ord l' (fst (get_viewcount (Some x) r y)) in
  get_viewcount (Some x) r' y' = (y', Ok i).
Proof. exact count_again. Qed.
Print Assumptions C45_same_count.
Example C45_count_example : snd (get_viewcount (Some "n") true (sys_calls keep asked new_sys)) = Ok 4.
Proof. exact eq_refl. Qed.

(** C45. Different names have different views. *)
Theorem C45_different_views : forall ord l x r i l' x' r' i', let y := sys_calls ord l new_sys in
  snd (get_viewtree ord (Some x) r y) = Ok i ->
  let y' := sys_calls ord l' (fst (get_viewtree ord (Some x) r y)) in
  snd (get_viewtree ord (Some x') r' y') = Ok i' -> x <> x' -> i <> i'.
Proof. exact views_differ. Qed.
Print Assumptions C45_different_views.
Example C45_different_example : let y := sys_calls keep asked new_sys in
  snd (get_viewtree keep (Some "other") true y) = Ok 4 /\
  snd (get_viewtree keep (Some "third") true (fst (get_viewtree keep (Some "other") true y))) = Ok 5.
Proof. exact (conj eq_refl eq_refl). Qed.

(** C45. Anonymous views are new and are not remembered. *)
Theorem C45_anonymous : forall ord r y i, snd (get_viewtree ord None r y) = Ok i ->
  nth_error (s_listeners y) i = None /\
  (exists s, nth_error (s_listeners (fst (get_viewtree ord None r y))) i = Some (LView s)) /\
  s_views (fst (get_viewtree ord None r y)) = s_views y.
Proof. exact anonymous_new. Qed.
Print Assumptions C45_anonymous.
Example C45_anonymous_example : snd (get_viewtree keep None true (sys_calls keep asked new_sys)) = Ok 4.
Proof. exact eq_refl. Qed.

(** C45. A name asked for the first time gets a view that did not exist. *)
Theorem C45_new_name : forall ord l x r i, let y := sys_calls ord l new_sys in
  (forall j, dget x (s_views y) <> Some j) -> snd (get_viewtree ord (Some x) r y) = Ok i ->
  nth_error (s_listeners y) i = None /\
  exists s, nth_error (s_listeners (fst (get_viewtree ord (Some x) r y))) i = Some (LView s).
Proof. exact new_name_new. Qed.
Print Assumptions C45_new_name.
Example C45_new_name_example : let y := sys_calls keep asked new_sys in
  dget "other" (s_views y) = None /\ snd (get_viewtree keep (Some "other") true y) = Ok 4.
Proof. exact (conj eq_refl eq_refl). Qed.

(** C47. Version requests of two decimal numbers. *)
Theorem C47_compatible : forall a b ma mi, numeral a ma -> numeral b mi ->
  is_compatible (a ++ "." ++ b)%string = Ok (Nat.eqb ma 3 && Nat.leb mi 0).
Proof. exact compatible. Qed.
Print Assumptions C47_compatible.
Example C47_example : numeral "3" 3 /\ numeral "12" 12 /\ is_compatible "3.0" = Ok true /\
  is_compatible "3.12" = Ok false /\ is_compatible "2.0" = Ok false.
Proof. exact numerals. Qed.
