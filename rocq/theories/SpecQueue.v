(** Vocabulary of the property theorems about the queue. Definitions only. *)
From Verif Require Import Base MainTree Queue.

Section Spec.
  Context {R E : Type}.
  Variable rq_eqb : R -> R -> bool.
  Variable exec : R -> E -> E * bool.

  (** The state of the system after some steps: the source being called by the
      main loop, if any, and the queue. *)
  Definition system := (option nat * queue R E)%type.
  Definition start (e : E) : system := (None, new_queue e).
  Definition runs (l : list (qstep R)) (c : system) : system := fold_left (fun c s => do_step rq_eqb exec s c) l c.

  (** Priorities above a priority. *)
  Definition above (p : priority) : list priority :=
    match p with High => [] | Normal => [High] | Low => [High; Normal] end.

  (** The request that should be executed next. *)
  Definition next_request (q : queue R E) : option (priority * R) :=
    match vipq q, normq q, lowq q with
    | r :: _, _, _ => Some (High, r)
    | [], r :: _, _ => Some (Normal, r)
    | [], [], r :: _ => Some (Low, r)
    | [], [], [] => None
    end.

  (** What an observer writes down at each step: a request that is accepted or
      found waiting already, a request whose execution begins, and one that the
      creating thread executes itself. *)
  Inductive note := Accepted (p : priority) (r : R) | Known (p : priority) (r : R) | Started (p : priority) (r : R) | Direct (r : R).

  Definition notes_of (s : qstep R) (c : system) : list note :=
    let q := snd c in
    match s with
    | QPush p r => if existsb (rq_eqb r) (queue_of p q) then [Known p r] else [Accepted p r]
    | QOrigin r => match running q with None => [Direct r] | Some _ => [] end
    | QBegin =>
        match running q, sources q, next_request q with
        | None, _ :: _, Some (p, r) => [Started p r]
        | _, _, _ => []
        end
    | QEnd => []
    end.

  Fixpoint notes (l : list (qstep R)) (c : system) : list note :=
    match l with
    | [] => []
    | s :: rest => notes_of s c ++ notes rest (do_step rq_eqb exec s c)
    end.

  Definition prio_eqb (a b : priority) : bool :=
    match a, b with Low, Low | Normal, Normal | High, High => true | _, _ => false end.

  Definition accepted (p : priority) (ns : list note) : list R :=
    flat_map (fun n => match n with Accepted p' r => if prio_eqb p p' then [r] else [] | _ => [] end) ns.
  Definition started (p : priority) (ns : list note) : list R :=
    flat_map (fun n => match n with Started p' r => if prio_eqb p p' then [r] else [] | _ => [] end) ns.
  Definition executed (ns : list note) : list R :=
    flat_map (fun n => match n with Started _ r | Direct r => [r] | _ => [] end) ns.

  (** All that waits, in the order in which it will be executed. *)
  Definition waiting (q : queue R E) : list R := vipq q ++ normq q ++ lowq q.

  Definition never_raises : Prop := forall r e, snd (exec r e) = false.

  (** [n] turns of the main loop. *)
  Fixpoint turns (n : nat) : list (qstep R) := match n with 0 => [] | S m => QBegin :: QEnd :: turns m end.

  (** Whenever a request raises, nothing else waits. *)
  Fixpoint raises_alone (l : list (qstep R)) (c : system) : Prop :=
    match l with
    | [] => True
    | s :: rest =>
        (s = QEnd -> forall r, running (snd c) = Some r -> snd (exec r (app (snd c))) = true -> waiting (snd c) = []) /\
        raises_alone rest (do_step rq_eqb exec s c)
    end.

  (** No two requests of the list are equal. *)
  Fixpoint distinct (l : list R) : Prop :=
    match l with [] => True | r :: rest => (forall x, In x rest -> rq_eqb x r = false) /\ distinct rest end.
End Spec.
Arguments note : clear implicits.

(** The same request: the same call with the same arguments. Two additions of one
    node object are the same, whatever has been done to the object meanwhile. *)
Definition same_request (a b : request) : Prop :=
  a = b \/ exists o n1 d1 n2 d2 p, a = RAdd o n1 d1 p /\ b = RAdd o n2 d2 p.
