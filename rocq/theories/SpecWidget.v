(** Vocabulary of the property theorems about the widget. Definitions only. *)
From Coq Require Import Permutation.
From Verif Require Import Base MainTree Spec Filters FTree SpecApi SpecView SpecViewing Gtk SpecGtk Widget.

(** What a program can do with a widget, [asked] being the nodes it wanted to be
    collapsed. [start] says of which views the widget may be made; the application
    queues its own actions only (see [on_panel_signal]). *)
Inductive in_use (ord : nat -> list id -> list id) (pf : platform) (start : viewed -> Prop) : list id -> viewed -> panel -> Prop :=
| use_start : forall x x' p r, viewing ord x -> start x -> (forall n a, In a (waiting (snd x) n) -> 2 <= a) ->
    build_panel pf x = (x', p, r) -> in_use ord pf start [] x' p
| use_call : forall asked x p c x' p' r, in_use ord pf start asked x p -> supported x c -> (forall n a, c = VQueue n a -> 2 <= a) ->
    panel_call pf ord c x p = (x', p', r) -> in_use ord pf start asked x' p'
| use_sort : forall asked x p rs, in_use ord pf start asked x p -> Permutation rs (rows (store p)) ->
    in_use ord pf start asked x (set_store (mkGtk rs (clock (store p)) (cache_paths (store p)) (cache_position (store p))) p)
| use_collapse : forall asked t b s p above n s' p' r, in_use ord pf start asked (t, b, s) p -> strip n <> "" ->
    collapse_node false (above ++ [n]) s p = (s', p', r) -> in_use ord pf start (strip n :: asked) (t, b, s') p'
| use_idle : forall asked t b s p s' p' r, in_use ord pf start asked (t, b, s) p ->
    run_idle s p = (s', p', r) -> in_use ord pf start asked (t, b, s') p'.

(** Views of any kind, and those without a node below another one. *)
Definition anything (x : viewed) : Prop := True.
Definition no_nesting (x : viewed) : Prop := forall l, view_path (snd x) l -> length l = 1.

(** A row with rows below it. *)
Definition has_below (rs : list row) (r : row) : Prop := exists r', In r' rs /\ r_parent r' = Some (r_addr r).
Definition is_open (p : panel) (r : row) : Prop := In (r_addr r) (expanded p).

(** The rows at some index paths; those without a row are left out. *)
Definition rows_for (paths : list (list nat)) (g : gtk) : list row :=
  flat_map (fun ix => match row_for ix g with Some r => [r] | None => [] end) paths.

(** [moves_of rs before dragged kept]: of the dragged rows of the store [rs] the nodes
    [kept] are moved, in this order. A row is left only if a node on its path was moved
    before, being one of [before] or of the rows dragged earlier. *)
Inductive moves_of (rs : list row) : list id -> list row -> list id -> Prop :=
| moves_none : forall before, moves_of rs before [] []
| moves_take : forall before r rest kept, moves_of rs (r_id r :: before) rest kept -> moves_of rs before (r :: rest) (r_id r :: kept)
| moves_leave : forall before r rest kept l n, at_path rs r l -> In n l -> In n before ->
    moves_of rs before rest kept -> moves_of rs before (r :: rest) kept.

(** No row lies at or below the node of a row before it. *)
Fixpoint apart (rs : list row) (dragged : list row) : Prop :=
  match dragged with
  | [] => True
  | r :: rest => (forall r' l, In r' rest -> at_path rs r' l -> ~ In (r_id r) l) /\ apart rs rest
  end.

(** The tree after nodes were moved one after the other. *)
Definition moved (ns : list id) (dest : option id) (t : mtree) : mtree := fold_left (fun t n => after (MoveNode n dest) t) ns t.

(** Where something dropped at a row goes: below it, or below the node above it. *)
Definition goes_to (pl : place) (l : list id) : option id :=
  match pl with
  | Into => Some (last l "")
  | _ => match removelast l with [] => None | q => Some (last q "") end
  end.

(** What a program can do about drag and drop. *)
Inductive dnd_call := Name (n : id) | External (source : id) (f : nat).
Definition dnd_step (d : dnd) (c : dnd_call) : dnd :=
  match c with Name n => fst (set_dnd_name n d) | External s f => fst (set_dnd_external s f d) end.
Definition dnd_after (cs : list dnd_call) : dnd := fold_left dnd_step cs new_dnd.
Fixpoint sources (cs : list dnd_call) : list (id * nat) :=
  match cs with [] => [] | Name _ :: r => sources r | External s f :: r => (s, f) :: sources r end.
Definition last_name (cs : list dnd_call) : id := fold_left (fun m c => match c with Name n => n | _ => m end) cs "".
