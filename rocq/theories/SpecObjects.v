(** Vocabulary of the property theorems about node objects and about callbacks that call
    the tree. Definitions only. *)
From Verif Require Import Base MainTree Objects.

(** The object of the tree stored under an id. *)
Definition stored (w : world) (x : id) (o : obj) : Prop := exists a, dget x (names w) = Some a /\ nth_error (heap w) a = Some o.

(** [above w a x]: [a] is reached from the node [x] of the tree by following parents, at
    least once. *)
Inductive above (w : world) (a : id) : id -> Prop :=
| above_one : forall x o, stored w x o -> In a (o_par o) -> above w a x
| above_more : forall x o p, stored w x o -> In p (o_par o) -> above w a p -> above w a x.

(** Only objects that were never in the tree are added (adding a node that is in the tree
    does nothing). *)
Definition first_add (w : world) (c : call) : Prop :=
  match c with
  | CAdd a _ => forall o, nth_error (heap w) a = Some o -> o_tree o = false \/ named w (o_id o) = true
  | _ => True
  end.

(** All calls that callbacks make satisfy [P]. *)
Definition obeys (P : world -> call -> Prop) (react : listener) : Prop :=
  forall ev n l w c, react ev n l w = Do c -> P w c.

(** Callbacks that only look. *)
Definition silent (react : listener) : Prop := forall ev n l w, react ev n l w = Return.

(** Callbacks that do nothing when a node is announced as modified, and nothing when a node
    was deleted if nodes are ever deleted recursively. *)
Definition acts_at_ends (P : world -> call -> Prop) (react : listener) : Prop :=
  (forall n l w, react EModified n l w = Return) /\
  ((forall n l w, react EDeleted n l w = Return) \/ (forall w n, ~ P w (CRemove n true))).

(** Histories of calls that satisfy [P], with their outcomes and everything that was heard;
    after an exception the application goes on. *)
Inductive played (P : world -> call -> Prop) (react : listener) : world * list entry -> Prop :=
| played_start : played P react (new_world, [])
| played_call : forall s c fuel s' r, played P react s -> P (fst s) c -> exec fuel react c s = (s', r) ->
    played P react (fst s', snd s' ++ [Made c r]).

(** Histories in which moreover every call returns or raises. *)
Inductive completed (P : world -> call -> Prop) (react : listener) : world * list entry -> Prop :=
| completed_start : completed P react (new_world, [])
| completed_call : forall s c fuel s' r, completed P react s -> P (fst s) c -> exec fuel react c s = (s', r) -> r <> Diverge ->
    completed P react (fst s', snd s' ++ [Made c r]).

(** Objects are added when they were never in the tree, with ids that are not empty, and
    methods are called for objects before they are added and while they are in the tree. *)
Definition proper (w : world) (c : call) : Prop :=
  match c with
  | CAdd a _ => forall o, nth_error (heap w) a = Some o -> o_id o <> "" /\ (o_tree o = false \/ named w (o_id o) = true)
  | CAddParent a _ | CSetParent a _ | CRemoveParent a _ | CAddChild a _ | CParentsEnabled a _ | CChildrenEnabled a _ =>
      forall o, nth_error (heap w) a = Some o -> o_tree o = false \/ dget (o_id o) (names w) = Some a
  | _ => True
  end.

(** Each id belongs to one object (the root has one too), which may be added again after
    it was removed. *)
Definition own_ids (w : world) (c : call) : Prop :=
  match c with
  | CNew n => forall o, In o (heap w) -> o_id o <> n
  | CAdd a _ => a <> 0
  | _ => True
  end.

(** Each id belongs to one object (the root has one too), which may be added again after
    it was removed; nodes are removed one at a time. *)
Definition one_object (w : world) (c : call) : Prop :=
  match c with
  | CNew n => forall o, In o (heap w) -> o_id o <> n
  | CAdd a _ => a <> 0
  | CRemove _ recursive => recursive = false
  | _ => True
  end.

(** All calls that were made so far returned. *)
Definition all_returned (l : list entry) : Prop := forall c r, In (Made c r) l -> r = Ok tt.

(** The ids that the root lists. *)
Definition top (w : world) : list id := match nth_error (heap w) 0 with Some o => o_chi o | None => [] end.

(** A node of the tree that neither the root nor a node of the tree lists, and whose
    parents are not in the tree. *)
Definition lost (w : world) (x : id) : Prop :=
  exists o, stored w x o /\ ~ In x (top w) /\ (forall p, In p (o_par o) -> dget p (names w) = None) /\
    forall p q, stored w p q -> ~ In x (o_chi q).

(** The tree of MainTree that a world stands for: the objects that it names. *)
Definition node_of (o : obj) : node := mkNode (o_par o) (o_chi o) (o_pen o) (o_cen o) (o_npend o) 0.
Definition node_at_addr (w : world) (a : nat) : node := match nth_error (heap w) a with Some o => node_of o | None => new_node 0 end.
Definition tree_of (w : world) : mtree := mkTree (map (fun z => (fst z, node_at_addr w (snd z))) (names w)) (wpend w) (top w).

(** What a call is in MainTree: nothing for an object that is not in the tree. *)
Definition method (w : world) (a : nat) (f : id -> mop) : option mop :=
  match nth_error (heap w) a with Some o => if o_tree o then Some (f (o_id o)) else None | None => None end.
Definition op_of (w : world) (c : call) : option mop :=
  match c with
  | CNew _ => None
  | CAdd a p => match nth_error (heap w) a with Some o => if named w (o_id o) then None else Some (AddNode (o_id o) (node_of o) p) | None => None end
  | CRemove n r => Some (DelNode n r)
  | CModify n => Some (ModifyNode n)
  | CRelate p c => Some (NewRelationship p c)
  | CBreak p c => Some (BreakRelationship p c)
  | CAddParent a p => method w a (fun n => AddParent n p)
  | CSetParent a p => method w a (fun n => SetParent n p)
  | CRemoveParent a p => method w a (fun n => RemoveParent n p)
  | CAddChild a c => method w a (fun n => AddChild n c)
  | CParentsEnabled a b => method w a (fun n => SetParentsEnabled n b)
  | CChildrenEnabled a b => method w a (fun n => SetChildrenEnabled n b)
  end.

(** Proper calls which, seen as calls of MainTree, satisfy [Q]. *)
Definition proper_and (Q : mtree -> mop -> Prop) (w : world) (c : call) : Prop := proper w c /\ forall o, op_of w c = Some o -> Q (tree_of w) o.
