(** Vocabulary of the property theorems about the main tree: histories of calls,
    what the stored relations are, what an application can build. Definitions
    only. *)
From Verif Require Import Base MainTree.

(** The attributes [parents] and [children] of a node of the tree; empty for an
    id that is not in the tree. *)
Definition parents (t : mtree) (x : id) : list id :=
  match dget x (nodes t) with Some nd => par nd | None => [] end.
Definition childs (t : mtree) (x : id) : list id :=
  match dget x (nodes t) with Some nd => chi nd | None => [] end.

(** [anc t a x]: [a] is [x] or is reached from [x] by following parents. *)
Inductive anc (t : mtree) (a : id) : id -> Prop :=
| anc_refl : anc t a a
| anc_step : forall p x, In p (parents t x) -> anc t a p -> anc t a x.

(** A proper ancestor. *)
Definition ancestor (t : mtree) (a x : id) : Prop := exists p, In p (parents t x) /\ anc t a p.

(** Trees reached from the empty one by calls that satisfy [P] in the tree in
    which they are made ([after] in MainTree is the tree after one call). A call that raises is followed by further calls (the
    application catches the exception). *)
Inductive reach (P : mtree -> mop -> Prop) : mtree -> Prop :=
| reach_start : reach P empty_tree
| reach_call : forall t o, reach P t -> P t o -> reach P (after o t).

(** A node object as an application builds it before adding it to the tree. *)
Inductive app_node (n : id) : node -> Prop :=
| an_new : forall v, app_node n (new_node v)
| an_add_parent : forall p nd, app_node n nd -> app_node n (detached_add_parent n p nd)
| an_set_parent : forall p nd, app_node n nd -> app_node n (detached_set_parent n p nd)
| an_add_child : forall c nd, app_node n nd -> app_node n (detached_add_child n c nd)
| an_pen : forall b nd, app_node n nd -> app_node n (detached_set_parents_enabled b nd)
| an_cen : forall b nd, app_node n nd -> app_node n (detached_set_children_enabled b nd).

(** Restrictions on calls.
    [fresh_add]: only newly built node objects are added. *)
Definition fresh_add (o : mop) : Prop :=
  match o with AddNode n nd _ => app_node n nd | _ => True end.
(** [named_add]: the empty string is not used as an id. *)
Definition named_add (o : mop) : Prop :=
  match o with AddNode n _ _ => n <> "" | _ => True end.
(** [unlisted_add]: the id of an added node is not listed as a child by some node
    of the tree (it may be when a node of that id with several parents was
    deleted before). *)
Definition unlisted_add (t : mtree) (o : mop) : Prop :=
  match o with AddNode n _ _ => has_node t n = false -> forall q, ~ In n (childs t q) | _ => True end.

Definition any_fresh (t : mtree) (o : mop) : Prop := fresh_add o.
Definition fresh_named (t : mtree) (o : mop) : Prop := fresh_add o /\ named_add o.
Definition fresh_unlisted (t : mtree) (o : mop) : Prop :=
  fresh_add o /\ named_add o /\ unlisted_add t o.

(** As [reach], but moreover a function registered for an event may raise: the
    call is then abandoned with the tree as it was when that event was sent. *)
Inductive reachx (P : mtree -> mop -> Prop) : mtree -> Prop :=
| reachx_start : reachx P empty_tree
| reachx_call : forall t o, reachx P t -> P t o -> reachx P (after o t)
| reachx_abort : forall t o e, reachx P t -> P t o -> In e (events o t) -> reachx P (ev_tree e).

(** [told ks es ks']: a listener that knows the nodes [ks] and hears the events
    [es] knows [ks'] in the end; each event makes sense to it when it arrives and
    agrees with the tree at that moment. *)
Inductive told : list id -> list event -> list id -> Prop :=
| told_nil : forall ks, told ks [] ks
| told_added : forall ks n s es ks', ~ In n ks -> get_all_nodes s = ks ++ [n] ->
    told (ks ++ [n]) es ks' -> told ks (Ev EAdded n s :: es) ks'
| told_modified : forall ks n s es ks', In n ks -> get_all_nodes s = ks ->
    told ks es ks' -> told ks (Ev EModified n s :: es) ks'
| told_deleted : forall ks n s es ks', In n ks -> get_all_nodes s = remove1 n ks ->
    told (remove1 n ks) es ks' -> told ks (Ev EDeleted n s :: es) ks'.

(** Ordinary applications.
    [plain_add]: added nodes are newly built, do not disable parents or children,
    and their ids are neither empty nor the id of the root. *)
Definition plain_add (o : mop) : Prop :=
  match o with
  | AddNode n nd _ => app_node n nd /\ pen nd = true /\ cen nd = true /\ n <> "" /\ n <> main_root
  | _ => True
  end.
(** [no_flags]: set_parents_enabled and set_children_enabled are not used. *)
Definition no_flags (o : mop) : Prop :=
  match o with SetParentsEnabled _ _ | SetChildrenEnabled _ _ => False | _ => True end.
(** [settled]: additions and deletions do not raise (other calls may). *)
Definition settled (t : mtree) (o : mop) : Prop :=
  match o with AddNode _ _ _ | DelNode _ _ => outcome o t = Ok tt | _ => True end.
Definition calm (t : mtree) (o : mop) : Prop :=
  plain_add o /\ no_flags o /\ unlisted_add t o /\ settled t o.
(** [single]: nodes that are deleted (with the nodes below them when the deletion
    is recursive) have at most one parent. *)
Definition single (t : mtree) (o : mop) : Prop :=
  match o with
  | DelNode n true => forall x, anc t n x -> length (parents t x) <= 1
  | DelNode n false => length (parents t n) <= 1
  | _ => True
  end.
(** [odd_parent]: in the list of the parents of [x], [p] is the second, the fourth, ... *)
Definition odd_parent (t : mtree) (x p : id) : Prop := exists i, nth_error (parents t x) (2 * i + 1) = Some p.
(** [tame]: a node below [n] has at most one such parent that is itself at or below [n].
    So it is when no node below [n] has more than three parents. *)
Definition tame (t : mtree) (n : id) : Prop := forall x p q, anc t n x ->
  odd_parent t x p -> odd_parent t x q -> anc t n p -> anc t n q -> p = q.
(** [tidy]: as [calm], and only such nodes are deleted. *)
Definition tidy (t : mtree) (o : mop) : Prop :=
  plain_add o /\ no_flags o /\ single t o /\
  match o with AddNode _ _ _ => outcome o t = Ok tt | _ => True end.

(** The four ways to ask for the relation [p] -> [c]. *)
Inductive asks (p c : id) : mop -> Prop :=
| asks_tree : asks p c (NewRelationship p c)
| asks_child : asks p c (AddChild p c)
| asks_parent : asks p c (AddParent c (Some p))
| asks_api : asks p c (TreeAddParent c (Some p)).

(** A list with an element put at the end unless it is there; without an element. *)
Definition add_last (x : id) (l : list id) : list id := if mem x l then l else l ++ [x].
Definition drop (x : id) (l : list id) : list id := filter (fun y => negb (String.eqb y x)) l.

(** Same nodes, same reported relations, same children of the root. *)
Definition same_tree (t t' : mtree) : Prop :=
  get_all_nodes t' = get_all_nodes t /\ root_children t' = root_children t /\
  forall x, get_parents t' x = get_parents t x /\ get_children t' x = get_children t x.

Definition parents_enabled (t : mtree) (x : id) : bool :=
  match dget x (nodes t) with Some nd => pen nd | None => false end.
Definition children_enabled (t : mtree) (x : id) : bool :=
  match dget x (nodes t) with Some nd => cen nd | None => false end.

(** [desc t n x]: [x] is [n] or is reached from [n] by following children. *)
Inductive desc (t : mtree) (n : id) : id -> Prop :=
| desc_refl : desc t n n
| desc_step : forall p x, desc t n p -> In x (get_children t p) -> desc t n x.

(** A chain from a node without parents down to [n], each the parent of the next. *)
Inductive chain_to (t : mtree) : id -> list id -> Prop :=
| chain_top : forall n, has_node t n = true -> get_parents t n = [] -> chain_to t n [n]
| chain_down : forall p n q, In p (get_parents t n) -> chain_to t p q -> chain_to t n (q ++ [n]).

(** [fresh_plain]: newly built nodes, whose ids are neither empty nor the id of
    the root. *)
Definition fresh_plain (t : mtree) (o : mop) : Prop :=
  fresh_add o /\ match o with AddNode n _ _ => n <> "" /\ n <> main_root | _ => True end.

(** [during p c t t']: calls that lead from [t] to [t'], neither adding nor
    removing [p] or [c], nor breaking the relation [p] -> [c]. Deletions do not
    raise. *)
Inductive during (p c : id) (t : mtree) : mtree -> Prop :=
| during_start : during p c t t
| during_call : forall t1 o, during p c t t1 ->
    fresh_add o /\ o <> BreakRelationship p c /\
    (match o with DelNode _ _ => outcome o t1 = Ok tt | _ => True end) /\
    has_node (after o t1) p = has_node t1 p /\ has_node (after o t1) c = has_node t1 c ->
    during p c t (after o t1).
