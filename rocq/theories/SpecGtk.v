(** Vocabulary of the property theorems about the Gtk model. Definitions only. *)
From Coq Require Import Permutation.
From Verif Require Import Base MainTree Spec Filters FTree SpecApi SpecView SpecViewing Gtk.

(** [at_path rs r l]: the row [r] of the store [rs] is at the path [l]. *)
Inductive at_path (rs : list row) : row -> list id -> Prop :=
| at_top : forall r, In r rs -> r_parent r = None -> at_path rs r [r_id r]
| at_below : forall r q l, In r rs -> r_parent r = Some (r_addr q) -> at_path rs q l -> at_path rs r (l ++ [r_id r]).

(** The store has exactly one row at each path in [X] and no others. *)
Definition shows (rs : list row) (X : list id -> Prop) : Prop :=
  NoDup (map r_addr rs) /\
  (forall r, In r rs -> exists l, at_path rs r l) /\
  (forall r l, at_path rs r l -> X l) /\
  (forall l, X l -> exists r, at_path rs r l) /\
  (forall r r' l, at_path rs r l -> at_path rs r' l -> r = r').

(** The allocator gives out an address that is not in use, and sorting keeps the
    rows. The allocator may also never give out the same address twice. *)
Definition faithful (pf : platform) : Prop :=
  (forall k live, ~ In (address pf k live) live) /\ (forall k l, Permutation (arrange pf k l) l).
Definition never_reuses (pf : platform) : Prop :=
  forall k live k' live', address pf k live = address pf k' live' -> k = k'.

Section Widget.
  Variable ord : nat -> list id -> list id.
  Variable pf : platform.

  (** A view handles events; the Gtk model handles the signals sent meanwhile. *)
  Fixpoint feed_widget (b : bank) (es : list event) (s : ft) (g : gtk) : ft * gtk * res unit :=
    match es with
    | [] => (s, g, Ok tt)
    | e :: rest =>
        match external_modify ord b (ev_tree e) (ev_id e) s with
        | (s1, Ok _) =>
            match on_signals pf (ev_tree e) (news s s1) g with
            | (g1, Ok _) => feed_widget b rest s1 g1
            | (g1, r) => (s1, g1, r)
            end
        | (s1, r) => (s1, g, r)
        end
    end.

  (** A call on a tree, a bank and a view with a connected Gtk model. The result tells
      whether the view or the Gtk model raised an exception. *)
  Definition widget_call (c : vcall) (x : viewed) (g : gtk) : viewed * gtk * res unit :=
    let '(t, b, s) := x in
    match c with
    | VTree o => let '(s1, g1, r) := feed_widget b (events o t) s g in (after o t, b, s1, g1, r)
    | _ =>
        match view_call ord c x with
        | (x1, Ok _) => let '(g1, r) := on_signals pf t (news s (snd x1)) g in (x1, g1, r)
        | (x1, r) => (x1, g, r)
        end
    end.

  (** A new Gtk model connects to a view and asks for its state (treemodel.py:53-65). *)
  Definition connect (x : viewed) : viewed * gtk * res unit :=
    let '(t, b, s) := x in
    match get_current_state s with
    | (s1, Ok _) => let '(g1, r) := on_signals pf t (news s s1) new_gtk in (t, b, s1, g1, r)
    | (s1, r) => (t, b, s1, new_gtk, r)
    end.

  (** Supported calls after a Gtk model was connected to a view with a supported
      history. At any time the user may have the rows sorted in another way. *)
  Inductive watching : viewed -> gtk -> Prop :=
  | watch_start : forall x x' g' r, viewing ord x -> connect x = (x', g', r) -> watching x' g'
  | watch_call : forall x g c x' g' r, watching x g -> supported x c -> widget_call c x g = (x', g', r) -> watching x' g'
  | watch_sort : forall x g rs, watching x g -> Permutation rs (rows g) -> watching x (mkGtk rs (clock g) (cache_paths g) (cache_position g)).
End Widget.

(** Signals with the tree at the time they are sent. *)
Fixpoint on_heard (pf : platform) (l : list (mtree * sig)) (g : gtk) : gtk * res unit :=
  match l with
  | [] => (g, Ok tt)
  | (T, x) :: rest =>
      match on_signal pf T x g with
      | (g1, Ok _) => on_heard pf rest g1
      | (g1, r) => (g1, r)
      end
  end.
(** The node of a signal is in the tree. *)
Definition names_live (x : mtree * sig) : Prop :=
  match snd x with SAdded n _ | SModified n _ => has_node (fst x) n = true | _ => True end.
(** Every node is at one place only. *)
Definition one_place (cs : list (list id)) : Prop :=
  forall l l', In l cs -> In l' cs -> last l "" = last l' "" -> l = l'.
(** Signals that make sense to a client and never put a node at two places. *)
Inductive tidy_signals : list (list id) -> list (mtree * sig) -> list (list id) -> Prop :=
| tidy_none : forall cs, one_place cs -> tidy_signals cs [] cs
| tidy_more : forall cs x cs1 l cs2, one_place cs -> hear cs (snd x) cs1 -> names_live x -> tidy_signals cs1 l cs2 ->
    tidy_signals cs (x :: l) cs2.

(** [under rs a r]: the row [r] is the one with address [a] or below it. *)
Inductive under (rs : list row) (a : nat) : row -> Prop :=
| under_self : forall r, In r rs -> r_addr r = a -> under rs a r
| under_below : forall r q, In r rs -> r_parent r = Some (r_addr q) -> under rs a q -> under rs a r.
