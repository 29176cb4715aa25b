(** Model of liblarch/processqueue.py (class SyncQueue) together with the part of
    the GLib main loop it relies on. *)
From Verif Require Import Base MainTree.

Inductive priority := Low | Normal | High.

(** The queue, over an arbitrary type of requests ([element], the tuple of a bound
    method and its arguments). [rq_eqb] is Python's [==] on such tuples. [exec]
    runs a request on the state of the application [E] and tells whether it
    raised; whatever the request does on the origin thread, including further
    pushes (which run at once, lines 65-68), is inside [exec]. *)
Section Queue.
  Context {R E : Type}.
  Variable rq_eqb : R -> R -> bool.
  Variable exec : R -> E -> E * bool.

  (** processqueue.py:28-39. [handler] is [self._handler], the identifier returned
      by [GObject.idle_add]; [sources] are the idle sources that GLib will still
      call; [next_source] numbers them. [running] is the request that
      process_queue took out and is executing. [log] is a ghost: the requests
      started so far, in order. *)
  Record queue := mkQ {
    lowq : list R;
    normq : list R;
    vipq : list R;
    handler : option nat;
    sources : list nat;
    next_source : nat;
    running : option R;
    log : list R;
    app : E
  }.

  Definition new_queue (e : E) : queue := mkQ [] [] [] None [] 0 None [] e.

  Definition queue_of (p : priority) (q : queue) : list R :=
    match p with Low => lowq q | Normal => normq q | High => vipq q end.

  Definition append_to (p : priority) (r : R) (q : queue) : queue :=
    match p with
    | Low => mkQ (lowq q ++ [r]) (normq q) (vipq q) (handler q) (sources q) (next_source q) (running q) (log q) (app q)
    | Normal => mkQ (lowq q) (normq q ++ [r]) (vipq q) (handler q) (sources q) (next_source q) (running q) (log q) (app q)
    | High => mkQ (lowq q) (normq q) (vipq q ++ [r]) (handler q) (sources q) (next_source q) (running q) (log q) (app q)
    end.

  (** [GObject.idle_add]: a new source. *)
  Definition idle_add (q : queue) : queue :=
    mkQ (lowq q) (normq q) (vipq q) (Some (next_source q)) (sources q ++ [next_source q])
        (S (next_source q)) (running q) (log q) (app q).

  (** processqueue.py:70-84, a push from another thread; atomic because of the
      lock. *)
  Definition push (p : priority) (r : R) (q : queue) : queue :=
    if existsb (rq_eqb r) (queue_of p q) then q
    else
      let q1 := append_to p r q in
      match handler q1 with None => idle_add q1 | Some _ => q1 end.

  (** processqueue.py:65-68, a push from the origin thread. *)
  Definition push_origin (r : R) (q : queue) : queue :=
    mkQ (lowq q) (normq q) (vipq q) (handler q) (sources q) (next_source q) (running q)
        (log q ++ [r]) (fst (exec r (app q))).

  (** processqueue.py:94-102: take one request. *)
  Definition take (q : queue) : queue * option R :=
    match vipq q with
    | r :: rest => (mkQ (lowq q) (normq q) rest (handler q) (sources q) (next_source q) (running q) (log q) (app q), Some r)
    | [] =>
        match normq q with
        | r :: rest => (mkQ (lowq q) rest (vipq q) (handler q) (sources q) (next_source q) (running q) (log q) (app q), Some r)
        | [] =>
            match lowq q with
            | r :: rest => (mkQ rest (normq q) (vipq q) (handler q) (sources q) (next_source q) (running q) (log q) (app q), Some r)
            | [] => (q, None)
            end
        end
    end.

  (** processqueue.py:104-109: [GObject.source_remove] when nothing is left. *)
  Definition disarm (q : queue) : queue :=
    match lowq q, normq q, vipq q, handler q with
    | [], [], [], Some h =>
        mkQ [] [] [] None (filter (fun x => negb (Nat.eqb x h)) (sources q)) (next_source q) (running q) (log q) (app q)
    | _, _, _, _ => q
    end.

  Definition set_running (o : option R) (q : queue) : queue :=
    mkQ (lowq q) (normq q) (vipq q) (handler q) (sources q) (next_source q) o (log q) (app q).

  (** GLib calls source [h]; process_queue (lines 41-47) calls process() (lines
      86-111, atomic because of the lock) and starts the request. With nothing to
      process the callback just returns True. *)
  Definition begin_source (q : queue) : queue :=
    let '(q1, o) := take q in
    let q2 := disarm q1 in
    match o with
    | None => q2
    | Some r => mkQ (lowq q2) (normq q2) (vipq q2) (handler q2) (sources q2) (next_source q2)
                    (Some r) (log q2 ++ [r]) (app q2)
    end.

  (** The request returns or raises. When it raises, process_queue does not return
      True, and PyGObject's callback marshaller reports the exception and removes
      the source [h] that was being called (assumption about the runtime). *)
  Definition end_source (h : nat) (q : queue) : queue :=
    match running q with
    | None => q
    | Some r =>
        let '(e, raised) := exec r (app q) in
        mkQ (lowq q) (normq q) (vipq q) (handler q)
            (if raised then filter (fun x => negb (Nat.eqb x h)) (sources q) else sources q)
            (next_source q) None (log q) e
    end.

  (** Steps of the system. A push from another thread may happen at any time,
      also while a request runs. The origin thread pushes, or the main loop calls
      a live source, only when no request is running (pushes made by a running
      request are inside [exec]). *)
  Inductive qstep :=
  | QPush (p : priority) (r : R)
  | QOrigin (r : R)
  | QBegin
  | QEnd.

  Definition do_step (s : qstep) (cur : option nat * queue) : option nat * queue :=
    let '(h, q) := cur in
    match s with
    | QPush p r => (h, push p r q)
    | QOrigin r => match running q with None => (h, push_origin r q) | Some _ => (h, q) end
    | QBegin =>
        match running q, sources q with
        | None, src :: _ => (Some src, begin_source q)
        | _, _ => (h, q)
        end
    | QEnd => match h with Some src => (None, end_source src q) | None => (h, q) end
    end.

  Definition do_steps (l : list qstep) (q : queue) : queue :=
    snd (fold_left (fun c s => do_step s c) l (None, q)).
End Queue.
Arguments queue : clear implicits.
Arguments qstep : clear implicits.

(** tree.py:81-95: the requests that MainTree puts in its queue, with the
    priorities of lines 82-95 and __init__.py:75-87 ([add_node] and [modify_node]
    default to "low", the others pass no priority). Two add requests are equal
    only if they hold the same node object, hence the object number. *)
Inductive request :=
| RAdd (obj : nat) (n : id) (nd : node) (parent : option id)
| RRemove (n : id) (recursive : bool)
| RModify (n : id)
| RNew (p c : id)
| RBreak (p c : id).

(** tree.py:82-95: "low" for added and modified nodes, no priority
    otherwise. *)
Definition default_priority (r : request) : priority :=
  match r with
  | RAdd _ _ _ _ | RModify _ => Low
  | _ => Normal
  end.

Definition opt_eqb (a b : option id) : bool :=
  match a, b with
  | Some x, Some y => String.eqb x y
  | None, None => true
  | _, _ => false
  end.

Definition request_eqb (a b : request) : bool :=
  match a, b with
  | RAdd o1 _ _ p1, RAdd o2 _ _ p2 => Nat.eqb o1 o2 && opt_eqb p1 p2
  | RRemove n1 r1, RRemove n2 r2 => String.eqb n1 n2 && Bool.eqb r1 r2
  | RModify n1, RModify n2 => String.eqb n1 n2
  | RNew p1 c1, RNew p2 c2 => String.eqb p1 p2 && String.eqb c1 c2
  | RBreak p1 c1, RBreak p2 c2 => String.eqb p1 p2 && String.eqb c1 c2
  | _, _ => false
  end.

Definition op_of (r : request) : mop :=
  match r with
  | RAdd _ n nd p => AddNode n nd p
  | RRemove n rc => DelNode n rc
  | RModify n => ModifyNode n
  | RNew p c => NewRelationship p c
  | RBreak p c => BreakRelationship p c
  end.

(** Running a request on the main tree (no listeners). *)
Definition exec_request (r : request) (t : mtree) : mtree * bool :=
  (after (op_of r) t, match outcome (op_of r) t with Ok _ => false | _ => true end).
