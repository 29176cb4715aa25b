(** C53: walking through a view. Nothing but property theorems in this file. *)
From Coq Require Import Permutation.
From Verif Require Import Base MainTree Spec Filters FTree ViewCount Api ViewApi SpecApi SpecView SpecViewing SpecNav NavFacts ViewWitness ViewCases ApiWitness SysCases.

(** C53. The children of a displayed node; other ids raise KeyError. *)
Theorem C53_children : forall s n, let x := match n with None => froot s | Some x => x end in
  (is_displayed s x = true -> view_all_children s n = Ok (kids s x)) /\
  (is_displayed s x = false -> view_all_children s n = Err KeyError).
Proof. exact nav_children. Qed.
Print Assumptions C53_children.
Example C53_children_example : is_displayed (snd vshow) "a" = true /\ view_all_children (snd vshow) (Some "a") = Ok ["b"; "c"] /\
  view_all_children (snd vshow) None = Ok ["a"] /\ is_displayed (snd vshow) "x" = false.
Proof. exact nav_case_children. Qed.

Theorem C53_has_child : forall s n,
  (is_displayed s n = true -> exists b, view_has_child s n = Ok b /\ (b = true <-> kids s n <> [])) /\
  (is_displayed s n = false -> view_has_child s n = Err KeyError).
Proof. exact nav_has_child. Qed.
Print Assumptions C53_has_child.
Example C53_has_child_example : is_displayed (snd vshow) "a" = true /\ view_has_child (snd vshow) "a" = Ok true /\ view_has_child (snd vshow) "d" = Ok false.
Proof. exact nav_case_has. Qed.

(** C53. The child at a position of a node; beyond the last one ValueError. *)
Theorem C53_nth_child : forall s n i,
  (forall c, nth_error (kids s n) i = Some c -> view_nth_child s (Some n) i = Ok c) /\
  (nth_error (kids s n) i = None -> view_nth_child s (Some n) i = Err ValueError).
Proof. exact nav_nth. Qed.
Print Assumptions C53_nth_child.
Example C53_nth_child_example : nth_error (kids (snd vshow) "a") 1 = Some "c" /\ nth_error (kids (snd vshow) "a") 2 = None.
Proof. exact nav_case_nth. Qed.

(** C53 fails for None, which stands for the root elsewhere: KeyError. *)
Theorem C53_nth_none_refuted : exists t b s c, viewing keep (t, b, s) /\ nth_error (kids s (froot s)) 0 = Some c /\ view_nth_child s None 0 = Err KeyError.
Proof. exact root_nth_raises. Qed.
Print Assumptions C53_nth_none_refuted.

(** C53. The parents without the root of the view. *)
Theorem C53_parents : forall s n, sound s ->
  (is_displayed s n = true -> view_parents s n = Ok (proper_parents s n)) /\
  (is_displayed s n = false -> view_parents s n = Err IndexError).
Proof. exact nav_parents. Qed.
Print Assumptions C53_parents.
Example C53_parents_example : sound (snd vshow) /\ is_displayed (snd vshow) "d" = true /\ view_parents (snd vshow) "d" = Ok ["b"; "c"] /\
  view_parents (snd vshow) "a" = Ok [].
Proof. exact nav_case_parents. Qed.

(** C53. The next node below a given parent. *)
Theorem C53_next : forall s p i n, sound s -> p <> "" -> nth_error (kids s p) i = Some n ->
  view_next_node s n (Some p) = Ok (nth_error (kids s p) (S i)).
Proof. exact nav_next. Qed.
Print Assumptions C53_next.
Example C53_next_example : sound (snd vshow) /\ nth_error (kids (snd vshow) "a") 0 = Some "b" /\ view_next_node (snd vshow) "b" (Some "a") = Ok (Some "c").
Proof. exact nav_case_next. Qed.

(** C53. Without a parent, the first one is taken. *)
Theorem C53_next_first : forall s p rest i n, sound s -> pars s n = p :: rest -> nth_error (kids s p) i = Some n ->
  view_next_node s n None = Ok (nth_error (kids s p) (S i)).
Proof. exact nav_next_first. Qed.
Print Assumptions C53_next_first.
Example C53_next_first_example : sound (snd vshow) /\ pars (snd vshow) "d" = ["b"; "c"] /\ nth_error (kids (snd vshow) "b") 0 = Some "d".
Proof. exact nav_case_first. Qed.

(** C53. A node that is not displayed, the root, or something that is not its
    parent: an exception. *)
Theorem C53_next_raises : forall s n p, p <> "" ->
  (is_displayed s n = false \/ n = froot s \/ ~ In p (pars s n)) -> view_next_node s n (Some p) = Err PyException.
Proof. exact nav_next_raises. Qed.
Print Assumptions C53_next_raises.
Example C53_next_raises_example : is_displayed (snd vshow) "d" = true /\ ~ In "a" (pars (snd vshow) "d") /\ view_next_node (snd vshow) "d" (Some "a") = Err PyException.
Proof. exact nav_case_raises. Qed.

(** C53. Printing lists the view depth first, the root included. *)
Theorem C53_print : forall s, sound s -> exists ls, view_print s = Ok ls /\ listing s 0 [froot s] ls.
Proof. exact view_print_ok. Qed.
Print Assumptions C53_print.
Example C53_print_example : sound (snd vshow) /\
  view_print (snd vshow) = Ok [(0, "root_v"); (1, "a"); (2, "b"); (3, "d"); (2, "c"); (3, "d")].
Proof. exact nav_case_print. Qed.
