(** Vocabulary of the property theorems about requests that wait together.
    Definitions only. *)
From Verif Require Import Base MainTree Queue SpecQueue.

Section Batch.
  Context {R E : Type}.
  Variable rq_eqb : R -> R -> bool.
  Variable exec : R -> E -> E * bool.

  (** A list of requests without those that equal an earlier one. *)
  Fixpoint firsts (kept l : list R) : list R :=
    match l with
    | [] => kept
    | r :: rest => if existsb (rq_eqb r) kept then firsts kept rest else firsts (kept ++ [r]) rest
    end.

  (** The requests of one priority, in the order they were made. *)
  Definition of_priority (p : priority) (l : list (priority * R)) : list R :=
    map snd (filter (fun x => prio_eqb p (fst x)) l).

  (** The order of execution: high, normal, low; within each as made, once. *)
  Definition ordered (l : list (priority * R)) : list R :=
    firsts [] (of_priority High l) ++ firsts [] (of_priority Normal l) ++ firsts [] (of_priority Low l).

  (** Requests one after the other up to one that raises while others wait: those
      executed, those that wait for ever, and the state of the application. *)
  Fixpoint through (e : E) (l : list R) : list R * list R * E :=
    match l with
    | [] => ([], [], e)
    | r :: rest =>
        match exec r e, rest with
        | (e1, true), _ :: _ => ([r], rest, e1)
        | (e1, _), _ => let '(done, others, e2) := through e1 rest in (r :: done, others, e2)
        end
    end.

  Definition pushes (l : list (priority * R)) : list (qstep R) := map (fun x => QPush (fst x) (snd x)) l.
End Batch.

(** Requests that take a node away or change a relation; the others add or modify
    a node. *)
Definition cutting (r : request) : bool :=
  match r with RRemove _ _ | RNew _ _ | RBreak _ _ => true | RAdd _ _ _ _ | RModify _ => false end.
