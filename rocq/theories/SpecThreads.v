(** Vocabulary of the property theorems about programs with several threads.
    Definitions only. *)
From Verif Require Import Base MainTree Spec Queue SpecQueue Filters FTree ViewCount Api SpecSys Threads.

(** The state of the program after some steps. *)
Definition program (ord : nat -> list id -> list id) (l : list tstep) : queue tcall sys :=
  snd (runs tcall_eqb (exec_call ord) (map qstep_of l) (start new_sys)).

(** The calls executed to their end, in this order. *)
Definition completed (q : queue tcall sys) : list lcall :=
  map call_of (match running q with None => log q | Some _ => removelast (log q) end).

(** Calls one after the other. *)
Definition performed (ord : nat -> list id -> list id) (l : list lcall) (y : sys) : sys :=
  fold_left (fun y c => fst (lib_call ord c y)) l y.

(** Every call fits when its turn comes. *)
Fixpoint fitting (ord : nat -> list id -> list id) (l : list lcall) (y : sys) : Prop :=
  match l with [] => True | c :: rest => fits y c /\ fitting ord rest (fst (lib_call ord c y)) end.

(** And none of those that change the tree finds a circle. *)
Fixpoint smooth (ord : nat -> list id -> list id) (l : list lcall) (y : sys) : Prop :=
  match l with
  | [] => True
  | c :: rest => fits y c /\ (forall o, c = LTree o -> outcome o (s_tree y) = Ok tt) /\ smooth ord rest (fst (lib_call ord c y))
  end.

(** What still waits, in the order in which it will be executed. *)
Definition pending_calls (q : queue tcall sys) : list lcall := map call_of (waiting q).

(** Turns of the main loop. *)
Fixpoint loop (k : nat) : list tstep := match k with 0 => [] | S m => Begins :: Ends :: loop m end.

(** Calls one after the other up to one that raises while others wait: those
    executed and those left. *)
Fixpoint until_raise (ord : nat -> list id -> list id) (l : list lcall) (y : sys) : list lcall * list lcall :=
  match l with
  | [] => ([], [])
  | c :: rest =>
      match snd (lib_call ord c y), rest with
      | Err _, _ :: _ | Diverge, _ :: _ => ([c], rest)
      | _, _ => let '(executed, others) := until_raise ord rest (fst (lib_call ord c y)) in (c :: executed, others)
      end
  end.

(** The call of the tree that a request asks for. *)
Inductive asks : request -> mop -> Prop :=
| asks_add : forall k n nd p, asks (RAdd k n nd p) (AddNode n nd p)
| asks_remove : forall n b, asks (RRemove n b) (DelNode n b)
| asks_modify : forall n, asks (RModify n) (ModifyNode n)
| asks_new : forall p c, asks (RNew p c) (NewRelationship p c)
| asks_break : forall p c, asks (RBreak p c) (BreakRelationship p c).
