(** Vocabulary of the property theorems about the whole library: one tree, one bank
    of filters, any number of views and counts. Definitions only. *)
From Verif Require Import Base MainTree Spec Filters FTree ViewCount Api ViewApi SpecApi SpecView SpecViewing.

(** The calls of an application. Views and counts are given by their position;
    filters are refreshed at once. *)
Inductive lcall :=
| LTree (o : mop)
| LNewView (name : option id)
| LNewCount (name : option id)
| LMainCount
| LApply (view : nat) (name : id) (parameters : option params) (reset : bool)
| LUnapply (view : nat) (name : id)
| LReset (view : nat)
| LQueue (view : nat) (n : id) (action : nat)
| LState (view : nat)
| LCountApply (count : nat) (name : id)
| LCountUnapply (count : nat) (name : id)
| LCountRegister (count : nat) (f : nat)
| LBank (c : bcall).

Definition lib_call (ord : nat -> list id -> list id) (c : lcall) (y : sys) : sys * res unit :=
  match c with
  | LTree o => tree_call ord o y
  | LNewView name => let '(y1, r) := get_viewtree ord name true y in (y1, done r)
  | LNewCount name => let '(y1, r) := get_viewcount name true y in (y1, done r)
  | LMainCount => let '(y1, r) := main_filtered ord y in (y1, done r)
  | LApply i n p rs => view_apply_filter ord i n p rs true y
  | LUnapply i n => view_unapply_filter ord i n true y
  | LReset i => view_reset_filters ord i true y
  | LQueue i n a => view_queue_action i n a y
  | LState i => view_current_state ord i y
  | LCountApply i n => count_apply_filter i n true y
  | LCountUnapply i n => count_unapply_filter i n y
  | LCountRegister i f => count_register i f y
  | LBank c => (on_bank (bank_call c) y, Ok tt)
  end.

(** The filters that a view or a count uses. *)
Definition used (l : listener) : list id :=
  match l with LMain _ => [] | LView s => filters s | LCount v => vfilters v end.
(** The view that the main view made to count is not for the application. *)
Definition hidden (y : sys) (i : nat) : Prop := nth_error (s_listeners y) 0 = Some (LMain (Some i)).
Definition a_view (y : sys) (i : nat) : Prop := ~ hidden y i /\ exists s, nth_error (s_listeners y) i = Some (LView s).
Definition a_count (y : sys) (i : nat) : Prop := exists v, nth_error (s_listeners y) i = Some (LCount v).

(** The calls that fit. On the tree: ordinary calls, new nodes called neither like
    an event nor like the root of a view, and recursive deletions only where
    [tame] holds (always when no deleted node has more than three parents). A new view has a root that is no node.
    Parameters go to a known filter that no other view or count uses. The bank
    changes only filters that nobody uses, and gets filters on a node's own data. *)
Definition fits (y : sys) (c : lcall) : Prop :=
  match c with
  | LTree o => calm (s_tree y) o /\
      match o with
      | AddNode n _ _ => ~ In n reserved /\ forall s, In (LView s) (s_listeners y) -> n <> froot s
      | DelNode n true => tame (s_tree y) n
      | _ => True
      end
  | LNewView name => has_node (s_tree y) (root_name name) = false
  | LMainCount => has_node (s_tree y) (root_name None) = false
  | LApply i n p _ => a_view y i /\
      (p <> None -> get_filter (s_bank y) n <> None /\
        forall j l, nth_error (s_listeners y) j = Some l -> j <> i -> ~ In n (used l))
  | LUnapply i _ | LReset i => a_view y i
  | LQueue i n _ => a_view y i /\ n <> ""
  | LState i => i = 0 \/ a_view y i
  | LCountApply i _ | LCountUnapply i _ | LCountRegister i _ => a_count y i
  | LBank (BAdd n f _) => local f /\ bang n = false /\ forall l, In l (s_listeners y) -> ~ In n (used l)
  | LBank (BRemove n) | LBank (BParam n _) => forall l, In l (s_listeners y) -> ~ In n (used l)
  | LNewCount _ => True
  end.

Inductive library (ord : nat -> list id -> list id) : sys -> Prop :=
| library_new : library ord new_sys
| library_call : forall y c, library ord y -> fits y c -> library ord (fst (lib_call ord c y)).

(** What a view or a count should show. *)
Definition shows (t : mtree) (b : bank) (l : listener) : Prop :=
  match l with
  | LMain _ => True
  | LView s => no_clash t s /\ uptodate t b s
  | LCount v => (forall x, In x (vnodes v) <-> In x (satisfying b t (vfilters v))) /\
      vc_n_nodes v = length (satisfying b t (vfilters v))
  end.

(** The children of a node of the tree; those of "root" are the nodes without
    parents. *)
Definition main_kids (t : mtree) (x : id) : list id := if String.eqb x main_root then root_children t else get_children t x.

(** A node of the tree, or None for the root; and its id. *)
Definition standing (t : mtree) (n : option id) : Prop := match n with None => True | Some x => has_node t x = true end.
Definition id_of (n : option id) : id := match n with None => main_root | Some x => x end.
