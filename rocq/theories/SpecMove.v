(** Vocabulary of the property theorems about moving nodes. Definitions only. *)
From Verif Require Import Base MainTree Spec.

(** The parents that a move under [p] leaves: going through the list, [p] stays, any
    other parent goes and the one after it is skipped. *)
Fixpoint survivors (p : id) (l : list id) : list id :=
  match l with
  | [] => []
  | x :: r =>
      if String.eqb x p then p :: survivors p r
      else match r with [] => [] | y :: r' => y :: survivors p r' end
  end.
