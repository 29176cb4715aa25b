(** Vocabulary of the property theorems about the life of a view. Definitions only. *)
From Verif Require Import Base MainTree Spec Filters FTree SpecApi SpecView.

(** A view whose stored parents and children agree and have no cycle. *)
Record sound (s : ft) : Prop := {
  so_keys : NoDup (dkeys (fnodes s));
  so_root : is_displayed s (froot s) = true;
  so_top : pars s (froot s) = [];
  so_sym : forall p c, In c (kids s p) <-> In p (pars s c);
  so_ndp : forall x, NoDup (pars s x);
  so_ndk : forall x, NoDup (kids s x);
  so_acyclic : exists r : id -> nat, forall p c, In c (kids s p) -> r p < r c
}.

(** No node has the name of an event. *)
Definition proper (s : ft) : Prop := forall x, In x reserved -> ~ In x (view_all_nodes s).

(** A tree, a bank and one view of them, and the calls that concern the view. *)
Definition viewed := (mtree * bank * ft)%type.
Inductive vcall :=
| VTree (o : mop)
| VApply (name : id) (parameters : option params) (reset : bool)
| VUnapply (name : id)
| VReset
| VRefilter
| VQueue (n : id) (action : nat)
| VBank (c : bcall).

Definition done {A} (r : res A) : res unit := match r with Ok _ => Ok tt | Err e => Err e | Diverge => Diverge end.

(** The filters which a call applies are refreshed at once. The result tells
    whether the view raised an exception. *)
Definition view_call (ord : nat -> list id -> list id) (c : vcall) (x : viewed) : viewed * res unit :=
  let '(t, b, s) := x in
  match c with
  | VTree o => let '(s1, r) := feed ord b (events o t) s in (after o t, b, s1, r)
  | VApply n p rs => let '(b1, s1, r) := apply_filter ord t n p rs true b s in (t, b1, s1, done r)
  | VUnapply n => let '(s1, r) := unapply_filter ord b t n true s in (t, b, s1, done r)
  | VReset => let '(s1, r) := reset_filters ord b t true s in (t, b, s1, done r)
  | VRefilter => let '(s1, r) := refilter ord b t s in (t, b, s1, r)
  | VQueue n a => let '(s1, r) := queue_action n a s in (t, b, s1, done r)
  | VBank c => (t, bank_call c b, s, Ok tt)
  end.

(** The supported calls. On the tree: ordinary calls ([calm]), new nodes called
    neither like an event nor like the root of the view, and recursive deletions
    only where [tame] holds (always when no deleted node has more than three
    parents). Parameters are given to
    known filters only, actions are queued for a non-empty id, and the bank changes
    only filters that are not applied, adding only filters on a node's own data. *)
Definition supported (x : viewed) (c : vcall) : Prop :=
  let '(t, b, s) := x in
  match c with
  | VTree o => calm t o /\
      match o with
      | AddNode n _ _ => n <> froot s /\ ~ In n reserved
      | DelNode n true => tame t n
      | _ => True
      end
  | VApply n (Some _) _ => get_filter b n <> None
  | VQueue n _ => n <> ""
  | VBank (BAdd n f _) => local f /\ bang n = false /\ ~ In n (filters s)
  | VBank (BRemove n) => ~ In n (filters s)
  | VBank (BParam n _) => ~ In n (filters s)
  | _ => True
  end.

(** Where a view can start: a tree reached by ordinary calls, without a node called
    like an event or like the root of the view, and a bank of filters on a node's
    own data. *)
Definition welcome (t : mtree) (b : bank) (name : option id) : Prop :=
  reach calm t /\ has_node t (root_name name) = false /\ (forall x, In x reserved -> has_node t x = false) /\
  local_bank b /\ available b = [] /\ NoDup (list_filters b).

(** A new view gets some filters and is refreshed. *)
Definition opened (ord : nat -> list id -> list id) (t : mtree) (b : bank) (name : option id) (names : list id) : viewed :=
  (t, b, fst (refilter ord b t (set_filters names (new_ft name)))).

Inductive viewing (ord : nat -> list id -> list id) : viewed -> Prop :=
| viewing_start : forall t b name names, welcome t b name -> viewing ord (opened ord t b name names)
| viewing_call : forall x c, viewing ord x -> supported x c -> viewing ord (fst (view_call ord c x)).

(** [onward ord x y]: some supported calls lead from [x] to [y]. *)
Inductive onward (ord : nat -> list id -> list id) (x : viewed) : viewed -> Prop :=
| onward_here : onward ord x x
| onward_call : forall y c, onward ord x y -> supported y c -> onward ord x (fst (view_call ord c y)).

(** The same with a given list of calls. *)
Fixpoint view_calls (ord : nat -> list id -> list id) (l : list vcall) (x : viewed) : viewed :=
  match l with [] => x | c :: rest => view_calls ord rest (fst (view_call ord c x)) end.
Fixpoint all_supported (ord : nat -> list id -> list id) (l : list vcall) (x : viewed) : Prop :=
  match l with [] => True | c :: rest => supported x c /\ all_supported ord rest (fst (view_call ord c x)) end.

(** Some of the filters is flat. *)
Definition flattened (b : bank) (names : list id) : Prop :=
  exists name f d, In name names /\ get_filter b name = Some f /\ f_dic f = Some d /\ p_flat d = true.

(** The parents a node should have in a view with root [root] of the nodes [shown]. *)
Definition shown_parents (t : mtree) (shown : list id) (root : id) (n : id) : list id :=
  match filter (fun p => mem p shown) (get_parents t n) with [] => [root] | l => l end.

(** [set_equal a b]: the same elements, once each. *)
Definition same_set {A} (a b : list A) : Prop := NoDup a /\ NoDup b /\ forall x, In x a <-> In x b.

(** The actions that wait for a node. *)
Definition waiting (s : ft) (n : id) : list nat := match dget n (runonce s) with Some l => l | None => [] end.
(** No action waits for a node that is displayed. *)
Definition idle (s : ft) : Prop := forall n, is_displayed s n = true -> waiting s n = [].
Definition runs_of (n : id) (x : sig) : Prop := match x with SRun m _ => m = n | _ => False end.
Definition adds_of (n : id) (x : sig) : Prop := match x with SAdded m _ => m = n | _ => False end.
(** In [l] the actions [acts] of [n] run once each, in order, right before the first
    added signal for [n]; nothing else is run for [n]. *)
Definition delivered (n : id) (acts : list nat) (l : list sig) : Prop :=
  exists l1 p l2, l = l1 ++ map (SRun n) acts ++ SAdded n p :: l2 /\
    (forall x, In x l1 -> ~ runs_of n x /\ ~ adds_of n x) /\ (forall x, In x l2 -> ~ runs_of n x).

(** The view [s] of [t] is as it should be: the nodes that satisfy the filters, with
    the parents they have in the tree as far as these are displayed, all directly
    below the root if a filter is flat. *)
Record uptodate (t : mtree) (b : bank) (s : ft) : Prop := {
  up_sound : sound s;
  up_nodes : same_set (view_all_nodes s) (satisfying b t (filters s));
  up_pars : forall n, In n (view_all_nodes s) ->
    (flattened b (filters s) -> pars s n = [froot s]) /\
    (~ flattened b (filters s) -> pars s n = shown_parents t (view_all_nodes s) (froot s) n);
  up_flat : flat s = true <-> flattened b (filters s)
}.

(** The tree has no node called like an event or like the root of the view. *)
Definition no_clash (t : mtree) (s : ft) : Prop :=
  has_node t (froot s) = false /\ forall x, In x reserved -> has_node t x = false.

(** Calls that only announce nodes. *)
Definition announcing (o : mop) : Prop := o = RefreshAll \/ exists n, o = ModifyNode n.

(** The calls that change the filters of a view. *)
Inductive fcall :=
| FApply (name : id) (parameters : option params) (reset refresh : bool)
| FUnapply (name : id) (refresh : bool)
| FReset (refresh : bool).
Definition filter_call (ord : nat -> list id -> list id) (t : mtree) (x : bank * ft) (c : fcall) : bank * ft :=
  let '(b, s) := x in
  match c with
  | FApply n p rs rf => fst (apply_filter ord t n p rs rf b s)
  | FUnapply n rf => (b, fst (unapply_filter ord b t n rf s))
  | FReset rf => (b, fst (reset_filters ord b t rf s))
  end.
(** Is a filter applied after some calls, latest first? *)
Fixpoint applied (latest_first : list fcall) (n : id) : Prop :=
  match latest_first with
  | [] => False
  | FApply m _ rs _ :: older => n = m \/ (rs = false /\ applied older n)
  | FUnapply m _ :: older => n <> m /\ applied older n
  | FReset _ :: _ => False
  end.

(** The calls that rebuild a view at once: refilter, and those that change the
    applied filters or give parameters to one of them. *)
Definition rebuilding (s : ft) (c : vcall) : Prop :=
  match c with
  | VRefilter => True
  | VReset => True
  | VApply n p rs => (p <> None \/ rs = true \/ ~ In n (filters s))
  | VUnapply n => In n (filters s)
  | _ => False
  end.
