(** What happens in cases in which a property is false. *)
From Coq Require Import Ascii ZArith.
From Verif Require Import Base MainTree Spec Filters FTree ViewCount SpecApi SpecView FtRead ViewCases ApiWitness Columns SpecColumns ColumnFacts SpecExact ExactFacts.

(** C29. The arguments that [is_path_valid] accepts, for every state of a view: the
    empty one, and chains of two and more nodes that begin anywhere. *)
Theorem C29_valid_exact : forall s p, is_path_valid s p = true <-> p = [] \/ exists x q, p = x :: q /\ q <> [] /\ downward (kids s) x q.
Proof. exact valid_exact. Qed.
Print Assumptions C29_valid_exact.
Example C29_valid_exact_example : is_path_valid (snd vshow) ["b"; "d"] = true /\ is_path_valid (snd vshow) ["b"; "c"] = false /\ is_path_valid (snd vshow) ["d"] = false.
Proof. exact case_valid_exact. Qed.

(** C42. unregister_cllbck always raises and changes nothing. *)
Theorem C42_always : forall f v, vc_unregister f v = (v, Err AttributeError).
Proof. exact unregister_always. Qed.
Print Assumptions C42_always.
Example C42_always_example : callbacks (fst (vc_unregister 7 (vc_register 7 (mkVC true [] [] [] [])))) = [7].
Proof. exact eq_refl. Qed.

(** C43. Whatever was done before, adding a name that begins with an exclamation mark
    raises and changes nothing; so the other calls decide everything, and for them
    the property holds. *)
Theorem C43_exclamation : forall l,
  (forall rest f d, add_filter (String "!"%char rest) f d (bank_calls l) = (bank_calls l, Err UnboundLocalError)) /\
  bank_calls l = bank_calls (plain_calls l) /\ plain_names (plain_calls l).
Proof. exact exclamation. Qed.
Print Assumptions C43_exclamation.
Example C43_exclamation_example : plain_calls mixed_script = script ++ [BRemove "!work"] /\ bank_calls mixed_script = bank_calls script /\ mixed_script <> script.
Proof. exact case_mixed. Qed.

(** C53. node_nth_child(None, i) of a view never gives a node. *)
Theorem C53_nth_none_exact : forall s i,
  view_nth_child s None i = Err (match nth_error (kids s (froot s)) i with Some _ => KeyError | None => ValueError end).
Proof. exact nth_none_exact. Qed.
Print Assumptions C53_nth_none_exact.
Example C53_nth_none_exact_example : nth_error (kids (snd vshow) (froot (snd vshow))) 0 = Some "a".
Proof. exact case_nth_none. Qed.

(** C61. set_bg_color gives the function to every column, of any widget, that was
    described by the same [type, function] list, and to no other. *)
Theorem C61_exact : forall d w n f h num k, NoDup (map fst d) -> build_columns d = Ok w -> dget n (columns w) = Some (num, k) -> In num (cells_shown w) ->
  forall d' w', NoDup (map fst d') -> build_columns d' = Ok w' -> forall m, In m (map fst d') ->
    (value_of d' m = value_of d n -> function_of (fst (set_bg_color w n f h)) w' m = Some f) /\
    (value_of d' m <> value_of d n -> function_of (fst (set_bg_color w n f h)) w' m = function_of h w' m).
Proof. exact bg_exact. Qed.
Print Assumptions C61_exact.
Example C61_exact_example : NoDup (map fst tasks) /\ build_columns tasks = Ok (get_ok tasks) /\ dget "color" (columns (get_ok tasks)) = Some (4, 3) /\
  In 4 (cells_shown (get_ok tasks)) /\ NoDup (map fst other_tasks) /\ build_columns other_tasks = Ok (get_ok other_tasks) /\
  value_of other_tasks "x" = value_of tasks "color" /\ value_of other_tasks "y" <> value_of tasks "color".
Proof. exact case_other. Qed.
