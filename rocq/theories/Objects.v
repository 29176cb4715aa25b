(** A second model of liblarch/tree.py and liblarch/treenode.py, in which node objects
    have an identity of their own. It covers what MainTree.v leaves out: objects that were
    removed from the tree and are still used, objects that are added again, and
    functions registered for an event that call the tree while the event is handled.
    Calls are made from the thread that created the tree (processqueue.py:62-65: such
    requests are executed at once, also inside a callback). *)
From Verif Require Import Base MainTree.

(** treenode.py:23-40. A _Node object; [o_tree] says whether [self.tree] is set.
    Attributes that an application adds are left out. *)
Record obj := mkObj {
  o_id : id;
  o_par : list id;
  o_chi : list id;
  o_pen : bool;
  o_cen : bool;
  o_tree : bool;
  o_npend : list (option id * id)
}.

(** tree.py:33-40. The objects, by address; the object at address 0 is the root.
    [names] is the dict [self.nodes]: the address of the object stored under an id. *)
Record world := mkWorld {
  heap : list obj;
  names : dict nat;
  wpend : list (option id * id)
}.

(** treenode.py:23-40 without a parent *)
Definition new_obj (n : id) : obj := mkObj n [] [] true true false [].

(** tree.py:27-42 *)
Definition new_world : world := mkWorld [mkObj main_root [] [] true true true []] [] [].

(** What an application can do: make an object (treenode.py:23-40), the requests of
    MainTree, and methods of a node object, which is given by its address. refresh_all
    (tree.py:97-100) and move_node and add_parent of Tree (__init__.py:93-113) are
    several of these calls. *)
Inductive call :=
| CNew (n : id)
| CAdd (a : nat) (parent : option id)
| CRemove (n : id) (recursive : bool)
| CModify (n : id)
| CRelate (p c : id)
| CBreak (p c : id)
| CAddParent (a : nat) (p : option id)
| CSetParent (a : nat) (p : option id)
| CRemoveParent (a : nat) (p : id)
| CAddChild (a : nat) (c : id)
| CParentsEnabled (a : nat) (b : bool)
| CChildrenEnabled (a : nat) (b : bool).

(** What has happened so far: events that were sent and outcomes of calls. What the
    functions registered for an event do next is a function of the event, of what has
    happened and of the present objects: they make a call, return or raise. *)
Inductive entry := Heard (k : ekind) (n : id) | Made (c : call) (r : res unit).
Inductive reaction := Return | Throw (e : exn) | Do (c : call).
Definition listener := ekind -> id -> list entry -> world -> reaction.

(** State monad; the log has the newest entry last. *)
Definition O (A : Type) := world * list entry -> (world * list entry) * res A.
Definition oret {A} (a : A) : O A := fun s => (s, Ok a).
Definition oraise {A} (e : exn) : O A := fun s => (s, Err e).
Definition ohang {A} : O A := fun s => (s, Diverge).
Definition oget : O world := fun s => (s, Ok (fst s)).
Definition omod (f : world -> world) : O unit := fun s => ((f (fst s), snd s), Ok tt).
Definition olog (e : entry) : O unit := fun s => ((fst s, snd s ++ [e]), Ok tt).
Definition obind {A B} (m : O A) (k : A -> O B) : O B := fun s =>
  match m s with
  | (s1, Ok a) => k a s1
  | (s1, Err e) => (s1, Err e)
  | (s1, Diverge) => (s1, Diverge)
  end.
Declare Scope o_scope.
Delimit Scope o_scope with O.
Notation "x <- m ;; k" := (obind m (fun x => k))
  (at level 61, m at next level, right associativity) : o_scope.
Notation "m ;; k" := (obind m (fun _ => k))
  (at level 61, right associativity) : o_scope.
Open Scope o_scope.

Fixpoint oeach {X} (l : list X) (body : X -> O unit) : O unit :=
  match l with
  | [] => oret tt
  | x :: rest => body x ;; oeach rest body
  end.

(** Reading and writing objects. *)
Definition set_heap (h : list obj) (w : world) : world := mkWorld h (names w) (wpend w).
Definition set_names (d : dict nat) (w : world) : world := mkWorld (heap w) d (wpend w).
Definition set_wpend (p : list (option id * id)) (w : world) : world := mkWorld (heap w) (names w) p.
Definition w_par (l : list id) (o : obj) : obj := mkObj (o_id o) l (o_chi o) (o_pen o) (o_cen o) (o_tree o) (o_npend o).
Definition w_chi (l : list id) (o : obj) : obj := mkObj (o_id o) (o_par o) l (o_pen o) (o_cen o) (o_tree o) (o_npend o).
Definition w_pen (b : bool) (o : obj) : obj := mkObj (o_id o) (o_par o) (o_chi o) b (o_cen o) (o_tree o) (o_npend o).
Definition w_cen (b : bool) (o : obj) : obj := mkObj (o_id o) (o_par o) (o_chi o) (o_pen o) b (o_tree o) (o_npend o).
Definition w_tree (b : bool) (o : obj) : obj := mkObj (o_id o) (o_par o) (o_chi o) (o_pen o) (o_cen o) b (o_npend o).
Definition w_npend (l : list (option id * id)) (o : obj) : obj := mkObj (o_id o) (o_par o) (o_chi o) (o_pen o) (o_cen o) (o_tree o) l.

Fixpoint upd_nth (a : nat) (f : obj -> obj) (h : list obj) {struct h} : list obj :=
  match h, a with
  | [], _ => []
  | o :: t, 0 => f o :: t
  | o :: t, S k => o :: upd_nth k f t
  end.
Definition put (a : nat) (f : obj -> obj) (w : world) : world := set_heap (upd_nth a f (heap w)) w.

(** The object at an address. An application only has addresses of objects that exist. *)
Definition at_addr (a : nat) : O obj := fun s =>
  match nth_error (heap (fst s)) a with
  | Some o => (s, Ok o)
  | None => (s, Err PyException)
  end.

(** [self.nodes[n]], KeyError when absent. *)
Definition at_name (n : id) : O nat := fun s =>
  match dget n (names (fst s)) with
  | Some a => (s, Ok a)
  | None => (s, Err KeyError)
  end.

(** tree.py:317-319 *)
Definition named (w : world) (n : id) : bool := dmem n (names w).
Definition onamed (w : world) (p : option id) : bool := match p with Some x => named w x | None => false end.

(** treenode.py:135-143 *)
Definition obj_parents (w : world) (o : obj) : list id :=
  if o_pen o && o_tree o then filter (named w) (o_par o) else [].
(** treenode.py:188-196 *)
Definition obj_children (w : world) (o : obj) : list id :=
  if o_cen o && o_tree o then filter (named w) (o_chi o) else [].

(** tree.py:103-115 *)
Definition create (p c : id) : O unit :=
  pa <- at_name p ;;
  ca <- at_name c ;;
  omod (put pa (fun o => if mem c (o_chi o) then o else w_chi (o_chi o ++ [c]) o)) ;;
  omod (put ca (fun o => if mem p (o_par o) then o else w_par (o_par o ++ [p]) o)) ;;
  omod (put 0 (fun o => w_chi (remove1 c (o_chi o)) o)).

(** tree.py:117-126 *)
Definition destroy (p c : id) : O unit :=
  pa <- at_name p ;;
  ca <- at_name c ;;
  omod (put pa (fun o => w_chi (remove1 c (o_chi o)) o)) ;;
  omod (put ca (fun o => w_par (remove1 p (o_par o)) o)).

(** tree.py:128-149; [l] is the list [ancestors]; [visited] stays empty. *)
Fixpoint walk (fuel : nat) (w : world) (c : id) (l : list id) : res bool :=
  match l with
  | [] => Ok false
  | x :: rest =>
      match fuel with
      | 0 => Diverge
      | S f =>
          if String.eqb x c then Ok true
          else match dget x (names w) with
               | None => walk f w c rest
               | Some a =>
                   match nth_error (heap w) a with
                   | Some o => walk f w c (rest ++ o_par o)
                   | None => Err PyException
                   end
               end
      end
  end.
Definition circular (fuel : nat) (p c : id) : O bool := fun s => (s, walk fuel (fst s) c [p]).

(** [self.pending_relationships.remove(r)], ValueError when absent. *)
Definition forget (r : option id * id) : O unit :=
  w <- oget ;;
  if rel_mem r (wpend w) then omod (set_wpend (rel_remove1 r (wpend w))) else oraise ValueError.
Definition remember (r : option id * id) : O unit := omod (fun w => set_wpend (wpend w ++ [r]) w).

Section Calls.
  (** The listener, how it makes calls, and a bound on the rounds of loops. *)
  Variable react : listener.
  Variable self : call -> O unit.
  Variable fuel : nat.

  (** tree.py:74-79. The registered functions act until they return or one raises. A
      call of theirs may raise; they go on then (or raise in turn). *)
  Fixpoint listen (ev : ekind) (n : id) (k : nat) : O unit := fun s =>
    match react ev n (snd s) (fst s) with
    | Return => (s, Ok tt)
    | Throw e => (s, Err e)
    | Do c =>
        match k with
        | 0 => (s, Diverge)
        | S k' =>
            match self c s with
            | (s1, Diverge) => (s1, Diverge)
            | (s1, r) => listen ev n k' (fst s1, snd s1 ++ [Made c r])
            end
        end
    end.
  Definition notify (ev : ekind) (n : id) : O unit := olog (Heard ev n) ;; listen ev n fuel.

  (** tree.py:175-196, one iteration. Returns [add_to_root]. *)
  Definition build (n : id) (r : option id * id) (add_to_root : bool) : O bool :=
    w <- oget ;;
    a1 <- (if String.eqb (snd r) n && onamed w (fst r) then
             match fst r with
             | Some p =>
                 circ <- circular fuel p n ;;
                 a <- (if circ then oret add_to_root else create p n ;; oret false) ;;
                 forget r ;;
                 oret a
             | None => oret add_to_root
             end
           else oret add_to_root) ;;
    w' <- oget ;;
    (if (match fst r with Some p => String.eqb p n | None => false end) && named w' (snd r) then
       circ <- circular fuel n (snd r) ;;
       (if circ then oret tt else create n (snd r)) ;;
       forget r ;;
       oret a1
     else oret a1).
  Fixpoint builds (n : id) (l : list (option id * id)) (add_to_root : bool) : O bool :=
    match l with
    | [] => oret add_to_root
    | r :: rest => a <- build n r add_to_root ;; builds n rest a
    end.

  (** tree.py:151-217 *)
  Definition add (a : nat) (parent_id : option id) : O unit :=
    o <- at_addr a ;;
    let n := o_id o in
    w <- oget ;;
    if named w n then oret tt
    else
      omod (put a (w_tree true)) ;;
      omod (fun w => set_wpend (merge_pending (o_npend o) (wpend w)) w) ;;
      omod (put a (w_npend [])) ;;
      omod (fun w => set_names (dset n a (names w)) w) ;;
      w1 <- oget ;;
      b <- builds n (wpend w1) true ;;
      b' <- (match parent_id with
             | None => oret b
             | Some p =>
                 circ <- circular fuel p n ;;
                 if circ then oraise Circular
                 else
                   w2 <- oget ;;
                   if named w2 p then create p n ;; oret false
                   else remember (Some p, n) ;; oret b
             end) ;;
      (if b' then omod (put 0 (fun o => w_chi (o_chi o ++ [n]) o)) else oret tt) ;;
      notify EAdded n.

  (** tree.py:238-240: the loop over the list [node.parents] itself; [i] is the position
      of its iterator and [a] the address of [node]. *)
  Fixpoint cut_parents (k : nat) (a : nat) (n : id) (i : nat) : O unit :=
    o <- at_addr a ;;
    match nth_error (o_par o) i with
    | None => oret tt
    | Some p =>
        match k with
        | 0 => ohang
        | S k' => destroy p n ;; notify EModified p ;; cut_parents k' a n (S i)
        end
    end.

  (** tree.py:247-250 *)
  Definition cut_child (n c : id) : O unit :=
    destroy n c ;;
    notify EModified c ;;
    ca <- at_name c ;;
    co <- at_addr ca ;;
    match o_par co with
    | [] => omod (put 0 (fun o => w_chi (o_chi o ++ [c]) o))
    | _ => oret tt
    end.

  (** tree.py:219-256 *)
  Fixpoint remove (k : nat) (n : id) (recursive : bool) : O unit :=
    w <- oget ;;
    if negb (named w n) then oret tt
    else
      omod (fun w => set_wpend (filter (fun r => negb (mentions n r)) (wpend w)) w) ;;
      a <- at_name n ;;
      cut_parents fuel a n 0 ;;
      o <- at_addr a ;;
      (match k with
       | 0 => ohang
       | S k' => oeach (o_chi o) (fun c => if recursive then remove k' c true else cut_child n c)
       end) ;;
      omod (put 0 (fun o => w_chi (remove1 n (o_chi o)) o)) ;;
      _ <- at_name n ;;
      omod (fun w => set_names (ddel n (names w)) w) ;;
      notify EDeleted n.

  (** tree.py:258-261 *)
  Definition announce (n : id) : O unit :=
    w <- oget ;;
    if negb (String.eqb n main_root) && named w n then notify EModified n else oret tt.

  (** tree.py:263-291 *)
  Definition relate (p c : id) : O unit :=
    omod (fun w => set_wpend (rel_remove1 (Some p, c) (wpend w)) w) ;;
    if negb (truthy p) || negb (truthy c) || String.eqb p c then oret tt
    else
      w <- oget ;;
      if negb (named w p) || negb (named w c) then remember (Some p, c)
      else
        circ <- circular fuel p c ;;
        if circ then destroy p c ;; oraise Circular
        else
          create p c ;;
          omod (put 0 (fun o => w_chi (remove1 c (o_chi o)) o)) ;;
          notify EModified p ;;
          notify EModified c.

  (** treenode.py:155-172, also for the root *)
  Definition obj_add_child (a : nat) (c : id) : O unit :=
    o <- at_addr a ;;
    if o_cen o && negb (String.eqb c (o_id o)) then
      if mem c (o_chi o) then oret tt
      else if negb (o_tree o) then omod (put a (w_npend (o_npend o ++ [(Some (o_id o), c)])))
      else
        w <- oget ;;
        if negb (named w c) then remember (Some (o_id o), c)
        else
          ca <- at_name c ;;
          co <- at_addr ca ;;
          if o_pen co then
            omod (put a (fun o => w_chi (o_chi o ++ [c]) o)) ;;
            relate (o_id o) c
          else oret tt
    else oret tt.

  (** tree.py:293-314 *)
  Definition break (p c : id) : O unit :=
    omod (fun w => set_wpend (filter (fun r => negb (rel_eqb (Some p, c) r)) (wpend w)) w) ;;
    if negb (truthy p) || negb (truthy c) || String.eqb p c then oret tt
    else
      w <- oget ;;
      if negb (named w p) || negb (named w c) then oret tt
      else
        destroy p c ;;
        ca <- at_name c ;;
        co <- at_addr ca ;;
        w1 <- oget ;;
        (match obj_parents w1 co with
         | [] => obj_add_child 0 c
         | _ => oret tt
         end) ;;
        notify EModified p ;;
        notify EModified c.

  (** treenode.py:75-88 *)
  Definition obj_add_parent (a : nat) (p : option id) : O unit :=
    o <- at_addr a ;;
    if negb (oid_eqb p (o_id o)) && o_pen o && negb (match p with Some x => mem x (o_par o) | None => false end) then
      if negb (o_tree o) then omod (put a (w_npend (o_npend o ++ [(p, o_id o)])))
      else
        w <- oget ;;
        match p with
        | Some x =>
            if negb (named w x) then remember (p, o_id o)
            else
              pa <- at_name x ;;
              po <- at_addr pa ;;
              if o_cen po then relate x (o_id o) else oret tt
        | None => remember (p, o_id o)
        end
    else oret tt.

  (** treenode.py:113-117; without a tree [self.tree.break_relationship] fails. *)
  Definition obj_remove_parent (a : nat) (p : id) : O unit :=
    o <- at_addr a ;;
    if o_pen o && mem p (o_par o) then
      omod (put a (fun o => w_par (remove1 p (o_par o)) o)) ;;
      if o_tree o then break p (o_id o) else oraise AttributeError
    else oret tt.

  (** treenode.py:105-109: the loop over the list [self.parents] itself. Returns
      [is_already_parent_flag]. *)
  Fixpoint leave_others (k : nat) (a : nat) (p : id) (i : nat) (flag : bool) : O bool :=
    o <- at_addr a ;;
    match nth_error (o_par o) i with
    | None => oret flag
    | Some q =>
        match k with
        | 0 => ohang
        | S k' =>
            if String.eqb q p then leave_others k' a p (S i) true
            else obj_remove_parent a q ;; leave_others k' a p (S i) flag
        end
    end.

  (** treenode.py:90-111 *)
  Definition obj_set_parent (a : nat) (p : option id) : O unit :=
    o <- at_addr a ;;
    if negb (oid_eqb p (o_id o)) && o_pen o then
      if negb (o_tree o) then omod (put a (w_npend (o_npend o ++ [(p, o_id o)])))
      else
        w <- oget ;;
        if negb (onamed w p) then
          oeach (obj_parents w o) (fun q => break q (o_id o)) ;;
          remember (p, o_id o)
        else
          match p with
          | Some x =>
              pa <- at_name x ;;
              po <- at_addr pa ;;
              if o_cen po then
                flag <- leave_others fuel a x 0 false ;;
                if truthy x && negb flag then obj_add_parent a p else oret tt
              else oret tt
          | None => oret tt
          end
    else oret tt.

  (** treenode.py:66-70 *)
  Definition obj_parents_enabled (a : nat) (b : bool) : O unit :=
    o <- at_addr a ;;
    w <- oget ;;
    (if b then oret tt else oeach (obj_parents w o) (fun p => obj_remove_parent a p)) ;;
    omod (put a (w_pen b)).

  (** treenode.py:146-150; get_children() is empty without a tree. *)
  Definition obj_children_enabled (a : nat) (b : bool) : O unit :=
    o <- at_addr a ;;
    w <- oget ;;
    (if b then oret tt else oeach (obj_children w o) (fun c => break (o_id o) c)) ;;
    omod (put a (w_cen b)).

  Definition perform (c : call) : O unit :=
    match c with
    | CNew n => omod (fun w => set_heap (heap w ++ [new_obj n]) w)
    | CAdd a p => add a p
    | CRemove n r => remove fuel n r
    | CModify n => announce n
    | CRelate p c => relate p c
    | CBreak p c => break p c
    | CAddParent a p => obj_add_parent a p
    | CSetParent a p => obj_set_parent a p
    | CRemoveParent a p => obj_remove_parent a p
    | CAddChild a c => obj_add_child a c
    | CParentsEnabled a b => obj_parents_enabled a b
    | CChildrenEnabled a b => obj_children_enabled a b
    end.
End Calls.

(** A call; [fuel] bounds the rounds of its loops and how deep calls are made from
    within callbacks. [Diverge]: it was used up. *)
Fixpoint exec (fuel : nat) (react : listener) (c : call) : O unit :=
  match fuel with
  | 0 => ohang
  | S f => perform react (exec f react) f c
  end.

(** The application makes calls one after the other and goes on after exceptions. *)
Fixpoint play (fuel : nat) (react : listener) (cs : list call) (s : world * list entry) : world * list entry :=
  match cs with
  | [] => s
  | c :: rest =>
      match exec fuel react c s with
      | (s1, r) => play fuel react rest (fst s1, snd s1 ++ [Made c r])
      end
  end.
