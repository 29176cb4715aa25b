(** Model of a program in which other threads change the tree while the thread that
    created it works with the views: liblarch/tree.py:42 (one queue) and 81-95,
    liblarch/processqueue.py. *)
From Verif Require Import Base MainTree Queue Filters FTree ViewCount Api SpecSys.

(** What the creating thread executes: a request that another thread left in the
    queue (tree.py:81-95), or a call that it makes itself, which is executed at once
    (processqueue.py:65-68). *)
Inductive tcall :=
| TRequest (r : request)
| TCall (c : lcall).

(** Only requests are ever compared (processqueue.py:79). *)
Definition tcall_eqb (a b : tcall) : bool :=
  match a, b with TRequest x, TRequest y => request_eqb x y | _, _ => false end.

Definition call_of (t : tcall) : lcall :=
  match t with TRequest r => LTree (op_of r) | TCall c => c end.

(** processqueue.py:41-47 and 65-68: the call is made; it may raise. Simplification:
    the queue of Queue.v executes one call of the creating thread at a time, so a
    call made by a function of the application inside another call is not
    represented. *)
Definition exec_call (ord : nat -> list id -> list id) (t : tcall) (y : sys) : sys * bool :=
  let '(y1, r) := lib_call ord (call_of t) y in (y1, match r with Ok _ => false | _ => true end).

(** The steps of the program: another thread makes a request, the creating thread
    makes a call, the main loop calls process_queue (processqueue.py:41), and the
    request taken there returns. *)
Inductive tstep :=
| Asked (p : priority) (r : request)
| Called (c : lcall)
| Begins
| Ends.

Definition qstep_of (s : tstep) : qstep tcall :=
  match s with
  | Asked p r => QPush p (TRequest r)
  | Called c => QOrigin (TCall c)
  | Begins => QBegin
  | Ends => QEnd
  end.
