(** Model of the methods of node objects (liblarch/treenode.py) called by a thread
    that did not create the tree: what they change at once, and the requests that they
    leave in the queue (liblarch/tree.py:81-95). Simplification: between two steps of
    the queue a method runs as a whole; [late_add_parent] is the exception. *)
From Verif Require Import Base MainTree Queue SpecQueue.

(** The tree after the call, and the requests in the order they were made. A node
    that is not in the tree raises before anything happens (tree.py:321-328). *)
Definition tresult := (mtree * list request)%type.

(** treenode.py:75-88 *)
Definition t_add_parent (n : id) (p : option id) (t : mtree) : tresult :=
  match dget n (nodes t) with
  | None => (t, [])
  | Some nd =>
      if negb (oid_eqb p n) && pen nd && negb (match p with Some x => mem x (par nd) | None => false end) then
        match p with
        | Some x =>
            match dget x (nodes t) with
            | None => (set_pend (pend t ++ [(p, n)]) t, [])
            | Some pn => if cen pn then (t, [RNew x n]) else (t, [])
            end
        | None => (set_pend (pend t ++ [(p, n)]) t, [])
        end
      else (t, [])
  end.

(** treenode.py:113-117: the list of parents changes at once. *)
Definition t_remove_parent (n p : id) (t : mtree) : tresult :=
  match dget n (nodes t) with
  | None => (t, [])
  | Some nd =>
      if pen nd && mem p (par nd) then (upd_node n (fun nd => set_par (remove1 p (par nd)) nd) t, [RBreak p n])
      else (t, [])
  end.

(** treenode.py:105-109 *)
Fixpoint t_drop_other_parents (fuel : nat) (n p : id) (i : nat) (flag : bool) (t : mtree) : tresult * bool :=
  match dget n (nodes t) with
  | None => ((t, []), flag)
  | Some nd =>
      match nth_error (par nd) i, fuel with
      | None, _ | _, 0 => ((t, []), flag)
      | Some q, S f =>
          if String.eqb q p then t_drop_other_parents f n p (S i) true t
          else
            let '(t1, rs1) := t_remove_parent n q t in
            let '((t2, rs2), fl) := t_drop_other_parents f n p (S i) flag t1 in ((t2, rs1 ++ rs2), fl)
      end
  end.

(** treenode.py:90-111 *)
Definition t_set_parent (n : id) (p : option id) (t : mtree) : tresult :=
  match dget n (nodes t) with
  | None => (t, [])
  | Some nd =>
      if negb (oid_eqb p n) && pen nd then
        let unknown := (set_pend (pend t ++ [(p, n)]) t, map (fun q => RBreak q n) (get_parents t n)) in
        match p with
        | Some x =>
            match dget x (nodes t) with
            | None => unknown
            | Some pn =>
                if cen pn then
                  let '((t1, rs1), flag) := t_drop_other_parents (S (length (par nd))) n x 0 false t in
                  if truthy x && negb flag then let '(t2, rs2) := t_add_parent n p t1 in (t2, rs1 ++ rs2) else (t1, rs1)
                else (t, [])
            end
        | None => unknown
        end
      else (t, [])
  end.

(** treenode.py:155-172: the list of children changes at once. *)
Definition t_add_child (n c : id) (t : mtree) : tresult :=
  match dget n (nodes t) with
  | None => (t, [])
  | Some nd =>
      if cen nd && negb (String.eqb c n) then
        if mem c (chi nd) then (t, [])
        else
          match dget c (nodes t) with
          | None => (set_pend (pend t ++ [(Some n, c)]) t, [])
          | Some cn =>
              if pen cn then (upd_node n (fun nd => set_chi (chi nd ++ [c]) nd) t, [RNew n c]) else (t, [])
          end
      else (t, [])
  end.

(** treenode.py:66-70: the flag is set before any request is executed. *)
Definition t_set_parents_enabled (n : id) (b : bool) (t : mtree) : tresult :=
  match dget n (nodes t) with
  | None => (t, [])
  | Some nd =>
      let '(t1, rs) :=
        if b then (t, [])
        else fold_left (fun a p => let '(t1, rs1) := t_remove_parent n p (fst a) in (t1, snd a ++ rs1)) (get_parents t n) (t, []) in
      (upd_node n (set_pen b) t1, rs)
  end.

(** treenode.py:146-150 *)
Definition t_set_children_enabled (n : id) (b : bool) (t : mtree) : tresult :=
  match dget n (nodes t) with
  | None => (t, [])
  | Some nd => (upd_node n (set_cen b) t, if b then [] else map (fun c => RBreak n c) (get_children t n))
  end.

(** treenode.py:49-52 after a change of an attribute. *)
Definition t_set_data (n : id) (v : nat) (t : mtree) : tresult :=
  match dget n (nodes t) with
  | None => (t, [])
  | Some nd => (upd_node n (set_data v) t, [RModify n])
  end.

(** A call of the application made by another thread. The calls of MainTree are
    requests (tree.py:81-100; a new node is a new object), those of Tree use the node
    (__init__.py:93-113). *)
Definition thread_op (o : mop) (t : mtree) : tresult :=
  match o with
  | AddNode n nd p => (t, [RAdd 0 n nd p])
  | DelNode n rc => (t, [RRemove n rc])
  | ModifyNode n => (t, [RModify n])
  | SetData n v => t_set_data n v t
  | RefreshAll => (t, map RModify (dkeys (nodes t)))
  | NewRelationship p c => (t, [RNew p c])
  | BreakRelationship p c => (t, [RBreak p c])
  | AddParent n p => t_add_parent n p t
  | SetParent n p => t_set_parent n p t
  | RemoveParent n p => t_remove_parent n p t
  | AddChild n c => t_add_child n c t
  | SetParentsEnabled n b => t_set_parents_enabled n b t
  | SetChildrenEnabled n b => t_set_children_enabled n b t
  | MoveNode n p => if has_node t n then t_set_parent n p t else (t, [])
  | TreeAddParent n p => if has_node t n then t_add_parent n p t else (t, [])
  end.

(** treenode.py:80-83: another thread looks whether the parent is in the tree [t];
    when it goes on, the tree is [t']. *)
Definition late_add_parent (n p : id) (t t' : mtree) : tresult :=
  match dget n (nodes t) with
  | None => (t', [])
  | Some nd =>
      if negb (String.eqb p n) && pen nd && negb (mem p (par nd)) then
        match dget p (nodes t) with
        | None => (set_pend (pend t' ++ [(Some p, n)]) t', [])
        | Some pn => if cen pn then (t', [RNew p n]) else (t', [])
        end
      else (t', [])
  end.

(** The queue while other threads call methods of nodes and the creating thread makes
    calls. *)
Inductive nstep :=
| NOther (o : mop)
| NCall (o : mop)
| NTurn.

(** Simplification: a turn of the main loop is one step. *)
Definition nstep_on (s : nstep) (c : @system request mtree) : @system request mtree :=
  let '(h, q) := c in
  match s with
  | NOther o =>
      let '(t1, rs) := thread_op o (app q) in
      runs request_eqb exec_request (map (fun r => QPush (default_priority r) r) rs)
        (h, mkQ (lowq q) (normq q) (vipq q) (handler q) (sources q) (next_source q) (running q) (log q) t1)
  | NCall o => (h, mkQ (lowq q) (normq q) (vipq q) (handler q) (sources q) (next_source q) (running q) (log q) (after o (app q)))
  | NTurn => runs request_eqb exec_request [QBegin; QEnd] c
  end.
