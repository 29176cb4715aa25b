(** Model of the rest of liblarch_gtk/__init__.py (class TreeView): which rows are
    open, drag and drop, selections, and how signals of a view reach the widget. *)
From Coq Require Import Ascii.
From Verif Require Import Base MainTree Filters FTree SpecView SpecViewing Gtk.

(** ** How the signals of a view reach a client *)
Section Client.
  Context {C : Type}.
  Variable ord : nat -> list id -> list id.
  (** What the client does with a signal; the tree is the one at that time. *)
  Variable react : mtree -> sig -> C -> C * res unit.

  Fixpoint tell (T : mtree) (l : list sig) (p : C) : C * res unit :=
    match l with
    | [] => (p, Ok tt)
    | x :: rest =>
        match react T x p with
        | (p1, Ok _) => tell T rest p1
        | (p1, r) => (p1, r)
        end
    end.

  (** The view handles the events of a call on the tree one after the other. *)
  Fixpoint feed_client (b : bank) (es : list event) (s : ft) (p : C) : ft * C * res unit :=
    match es with
    | [] => (s, p, Ok tt)
    | e :: rest =>
        match external_modify ord b (ev_tree e) (ev_id e) s with
        | (s1, Ok _) =>
            match tell (ev_tree e) (news s s1) p with
            | (p1, Ok _) => feed_client b rest s1 p1
            | (p1, r) => (s1, p1, r)
            end
        | (s1, r) => (s1, p, r)
        end
    end.

  Definition client_call (c : vcall) (x : viewed) (p : C) : viewed * C * res unit :=
    let '(t, b, s) := x in
    match c with
    | VTree o => let '(s1, p1, r) := feed_client b (events o t) s p in (after o t, b, s1, p1, r)
    | _ =>
        match view_call ord c x with
        | (x1, Ok _) => let '(p1, r) := tell t (news s (snd x1)) p in (x1, p1, r)
        | (x1, r) => (x1, p, r)
        end
    end.

  (** The client asks for the current state. *)
  Definition client_connect (x : viewed) (p : C) : viewed * C * res unit :=
    let '(t, b, s) := x in
    match get_current_state s with
    | (s1, Ok _) => let '(p1, r) := tell t (news s s1) p in (t, b, s1, p1, r)
    | (s1, r) => (t, b, s1, p, r)
    end.
End Client.

(** ** Open rows *)

(** The widget. [expanded] are the open rows of the Gtk.TreeView, [collapsed_paths] is
    the attribute of that name (__init__.py:198), [idle_calls] the callbacks given to
    GObject.idle_add by collapse_node: the node and whether it is to be opened. *)
Record panel := mkPanel {
  store : gtk;
  expanded : list nat;
  collapsed_paths : list (list id);
  idle_calls : list (id * bool)
}.

Definition set_store (g : gtk) (p : panel) : panel := mkPanel g (expanded p) (collapsed_paths p) (idle_calls p).
Definition set_expanded (l : list nat) (p : panel) : panel := mkPanel (store p) l (collapsed_paths p) (idle_calls p).
Definition remember (q : list id) (p : panel) : panel := mkPanel (store p) (expanded p) (collapsed_paths p ++ [q]) (idle_calls p).
Definition set_idle (l : list (id * bool)) (p : panel) : panel := mkPanel (store p) (expanded p) (collapsed_paths p) l.

Definition has_rows (a : nat) (g : gtk) : bool := match store_children (Some a) g with [] => false | _ => true end.

(** Gtk: row_expanded(path) *)
Definition row_expanded (a : nat) (p : panel) : bool := existsb (Nat.eqb a) (expanded p).

(** Gtk: the widget knows a row if it is a top row or its parent is open. *)
Definition known (a : nat) (p : panel) : bool :=
  match row_at a (store p) with
  | None => false
  | Some r => match r_parent r with None => true | Some b => row_expanded b p end
  end.

Definition rows_under (a : nat) (g : gtk) : list row := filter (is_under (length (rows g)) (rows g) a) (rows g).

(** Gtk: expand_row(path, open_all) does nothing for a row without rows below it and
    for one that the widget does not know. *)
Definition expand_row (a : nat) (all : bool) (p : panel) : panel :=
  if known a p && has_rows a (store p) then
    let below := if all then filter (fun x => has_rows x (store p)) (map r_addr (rows_under a (store p))) else [] in
    set_expanded (expanded p ++ a :: below) p
  else p.

(** Gtk: collapse_row(path) forgets which rows below were open. *)
Definition collapse_row (a : nat) (p : panel) : panel :=
  let below := map r_addr (rows_under a (store p)) in
  set_expanded (filter (fun x => negb (existsb (Nat.eqb x) below)) (expanded p)) p.

(** __init__.py:219-230. [nid] does not change in the loop, so that only the row
    itself is looked up. *)
Definition on_child_toggled (a : nat) (p : panel) : panel :=
  match row_at a (store p) with
  | None => p
  | Some r =>
      let collapsed := existsb (fun c => String.eqb (last c "") (r_id r)) (collapsed_paths p) in
      if negb (row_expanded a p) && negb collapsed then expand_row a true p else p
  end.

Section Panel.
  Variable pf : platform.

  (** The signals of the view, when the widget is built. Gtk sends
      'row-has-child-toggled' when a row gets its first child; also when it loses the
      last one, but then nothing can be opened. A row that loses its last child is
      closed. The actions 0 and 1 are the retries of collapse_node and expand_node
      (__init__.py:269-279): the row of the node is not in the store yet, since the
      actions run before the 'added' handler, so that collapse_node finds no row and
      queues itself again; now the node is displayed and GObject.idle_add is called.
      Simplification: the entries for rows not found that this leaves in [cache_paths]
      are not modelled; they are never used. Other actions are those of the
      application. *)
  Definition on_panel_signal (T : mtree) (x : sig) (p : panel) : panel * res unit :=
    match x with
    | SAdded n path =>
        let it := snd (my_get_iter (removelast path) (store p)) in
        match on_signal pf T x (store p) with
        | (g1, Ok _) =>
            let p1 := set_store g1 p in
            (match it with
             | Some a => if Nat.eqb (length (store_children (Some a) g1)) 1 then on_child_toggled a p1 else p1
             | None => p1
             end, Ok tt)
        | (g1, r) => (set_store g1 p, r)
        end
    | SDeleted _ _ =>
        let '(g1, r) := on_signal pf T x (store p) in
        (mkPanel g1 (filter (fun a => has_rows a g1) (expanded p)) (collapsed_paths p) (idle_calls p), r)
    | SModified _ _ => let '(g1, r) := on_signal pf T x (store p) in (set_store g1 p, r)
    | SRun n 0 => (set_idle (idle_calls p ++ [(n, false)]) p, Ok tt)
    | SRun n 1 => (set_idle (idle_calls p ++ [(n, true)]) p, Ok tt)
    | SRun _ _ => (p, Ok tt)
    end.

  (** __init__.py:193-201 with treemodel.py:53-65. Nothing is there to be opened by
      expand_all, and 'row-has-child-toggled' is connected to when the rows are in the
      store already, so that they are all closed. *)
  Definition build_panel (x : viewed) : viewed * panel * res unit :=
    let '(x1, g, r) := client_connect (on_signal pf) x new_gtk in (x1, mkPanel g [] [] [], r).

  (** Calls on the tree, the bank and the view. *)
  Definition panel_call (ord : nat -> list id -> list id) := client_call ord on_panel_signal.
End Panel.

(** [strip("'")]. *)
Fixpoint lstrip (s : string) : string :=
  match s with
  | String "'"%char r => lstrip r
  | _ => s
  end.
Fixpoint rstrip (s : string) : string :=
  match s with
  | EmptyString => EmptyString
  | String c r => match rstrip r with
                  | EmptyString => if Ascii.eqb c "'"%char then EmptyString else String c EmptyString
                  | r' => String c r'
                  end
  end.
Definition strip (s : string) : string := rstrip (lstrip s).

(** __init__.py:257-267: the loop over the paths of the node. The result tells whether
    a row was found. *)
Fixpoint collapse_paths (opening : bool) (n : id) (paths : list (list id)) (p : panel) : panel * bool :=
  match paths with
  | [] => (p, false)
  | q :: rest =>
      let '(g1, it) := my_get_iter q (store p) in
      let p1 := set_store g1 p in
      match it with
      | None => collapse_paths opening n rest p1
      | Some a =>
          if match row_at a g1 with Some r => String.eqb (r_id r) n | None => false end then
            let p2 := if opening then expand_row a false p1 else collapse_row a p1 in
            (fst (collapse_paths opening n rest (remember q p2)), true)
          else collapse_paths opening n rest p1
      end
  end.

(** __init__.py:254-272, for the node without quotes. *)
Definition collapse_id (opening : bool) (n : id) (s : ft) (p : panel) : ft * panel * res unit :=
  if negb (truthy n) then (s, p, Err PyException)
  else
    match view_paths s n with
    | Ok ps =>
        let '(p1, seen) := collapse_paths opening n ps p in
        if seen then (s, p1, Ok tt)
        else
          match queue_action n (if opening then 1 else 0) s with
          | (s1, Ok true) => (s1, set_idle (idle_calls p1 ++ [(n, opening)]) p1, Ok tt)
          | (s1, Ok false) => (s1, p1, Ok tt)
          | (s1, Err e) => (s1, p1, Err e)
          | (s1, Diverge) => (s1, p1, Diverge)
          end
    | Err e => (s, p, Err e)
    | Diverge => (s, p, Diverge)
    end.

(** __init__.py:232-272: collapse_node, and expand_node with [opening]. *)
Definition collapse_node (opening : bool) (llpath : list id) (s : ft) (p : panel) : ft * panel * res unit :=
  match rev llpath with
  | [] => (s, p, Err IndexError)
  | n :: _ => collapse_id opening (strip n) s p
  end.

(** The main loop runs the first of the idle callbacks (__init__.py:274-279); it
    returns None, so that it is not run again. *)
Definition run_idle (s : ft) (p : panel) : ft * panel * res unit :=
  match idle_calls p with
  | [] => (s, p, Ok tt)
  | (n, opening) :: rest => collapse_id opening n s (set_idle rest p)
  end.

(** ** Places of rows *)

(** Gtk: get_iter(path), get_iter_from_string. ValueError is raised when there is no
    such row. *)
Fixpoint walk (at_row : option nat) (ix : list nat) (g : gtk) : option nat :=
  match ix with
  | [] => at_row
  | i :: rest =>
      match nth_error (store_children at_row g) i with
      | Some r => walk (Some (r_addr r)) rest g
      | None => None
      end
  end.
Definition row_for (ix : list nat) (g : gtk) : option row :=
  match walk None ix g with Some a => row_at a g | None => None end.

Fixpoint position_in (a : nat) (l : list row) : option nat :=
  match l with
  | [] => None
  | r :: t => if Nat.eqb (r_addr r) a then Some 0 else option_map S (position_in a t)
  end.

(** Gtk: get_path(iter), get_string_from_iter. *)
Fixpoint indices_up (fuel : nat) (a : nat) (g : gtk) : option (list nat) :=
  match fuel, row_at a g with
  | S f, Some r =>
      match position_in a (store_children (r_parent r) g) with
      | None => None
      | Some i =>
          match r_parent r with
          | None => Some [i]
          | Some b => option_map (fun l => l ++ [i]) (indices_up f b g)
          end
      end
  | _, _ => None
  end.
Definition indices (a : nat) (g : gtk) : option (list nat) := indices_up (length (rows g)) a g.

(** __init__.py:203-217: the path sent with 'node-expanded' and 'node-collapsed'. *)
Definition emitted (ix : list nat) (g : gtk) : res (list id) :=
  fold_left (fun acc i =>
    match acc with
    | Ok l => match row_for (firstn i ix) g with Some r => Ok (l ++ [r_id r]) | None => Err ValueError end
    | e => e
    end) (seq 1 (length ix)) (Ok []).

(** __init__.py:574-588: the ids of the selected rows. *)
Fixpoint ids_at (paths : list (list nat)) (g : gtk) : res (list id) :=
  match paths with
  | [] => Ok []
  | ix :: rest =>
      match row_for ix g with
      | None => Err ValueError
      | Some r => match ids_at rest g with Ok l => Ok (r_id r :: l) | e => e end
      end
  end.

(** __init__.py:446-456: the data of a drag, one index path per selected row. *)
Fixpoint drag_data (paths : list (list nat)) (g : gtk) : res (list (list nat)) :=
  match paths with
  | [] => Ok []
  | ix :: rest =>
      match walk None ix g with
      | None => Err ValueError
      | Some a =>
          match indices a g, drag_data rest g with
          | Some jx, Ok l => Ok (jx :: l)
          | _, e => match e with Ok _ => Err ValueError | _ => e end
          end
      end
  end.

(** ** Drag and drop *)
Inductive place := Before | After | Into.

(** __init__.py:480-505: the node that gets the dragged nodes; None for the root.
    [drop_info] is what get_dest_row_at_pos says. *)
Definition destination (drop_info : option (list nat * place)) (g : gtk) : res (option id) :=
  match drop_info with
  | None => Ok None
  | Some (ix, pl) =>
      match row_for ix g with
      | None => Err ValueError
      | Some r =>
          match pl with
          | Into => Ok (Some (r_id r))
          | Before | After =>
              match r_parent r with
              | None => Ok None
              | Some b => match row_at b g with Some q => Ok (Some (r_id q)) | None => Err ValueError end
              end
          end
      end
  end.

Section Drop.
  Variable pf : platform.
  Variable ord : nat -> list id -> list id.

  (** __init__.py:536-544, info == 0: exceptions are caught. A row is still valid when
      it is in the store. *)
  Fixpoint move_rows (iters : list nat) (dest : option id) (x : viewed) (p : panel) : viewed * panel :=
    match iters with
    | [] => (x, p)
    | a :: rest =>
        match row_at a (store p) with
        | None => move_rows rest dest x p
        | Some r =>
            let '(x1, p1, _) := panel_call pf ord (VTree (MoveNode (r_id r) dest)) x p in
            move_rows rest dest x1 p1
        end
    end.

  (** __init__.py:507-528: index paths without a row are left out. *)
  Fixpoint dragged (data : list (list nat)) (g : gtk) : list nat :=
    match data with
    | [] => []
    | ix :: rest => match walk None ix g with Some a => a :: dragged rest g | None => dragged rest g end
    end.

  (** __init__.py:458-550 for a drag within the widget. *)
  Definition drop_here (drop_info : option (list nat * place)) (data : list (list nat)) (x : viewed) (p : panel) : viewed * panel * res unit :=
    match destination drop_info (store p) with
    | Ok dest => (move_rows (dragged data (store p)) dest x p, Ok tt)
    | Err e => (x, p, Err e)
    | Diverge => (x, p, Diverge)
    end.
End Drop.

(** ** Targets of drag and drop *)

(** __init__.py:106-107. The dict [dnd_external_targets] holds the name of the source
    and a function. [handlers] counts how often on_drag_data_received is connected to
    the signal of Gtk. *)
Record dnd := mkDnd { internal : id; external : list (nat * (id * nat)); handlers : nat }.
Definition new_dnd : dnd := mkDnd "" [] 0.

(** __init__.py:432-436: the targets that Gtk is given, with their numbers. *)
Definition targets (d : dnd) : list (id * nat) := (internal d, 0) :: map (fun '(i, (n, _)) => (n, i)) (external d).

(** __init__.py:410-444: the targets are handed to Gtk, or an exception is raised. *)
Definition init_dnd (d : dnd) : res (list (id * nat)) :=
  if String.eqb (internal d) "" then Err PyException else Ok (targets d).

(** __init__.py:393-400: the handlers are connected unless there was an exception. *)
Definition set_dnd_name (n : id) (d : dnd) : dnd * res (list (id * nat)) :=
  let d1 := mkDnd n (external d) (handlers d) in
  match init_dnd d1 with
  | Ok l => (mkDnd n (external d) (S (handlers d)), Ok l)
  | r => (d1, r)
  end.

(** __init__.py:404-406: the first number from [i] on that is not used; one of the
    first [length + 1] numbers is free. *)
Fixpoint free_number (fuel i : nat) (l : list (nat * (id * nat))) : nat :=
  match fuel with
  | 0 => i
  | S f => if existsb (fun z => Nat.eqb (fst z) i) l then free_number f (S i) l else i
  end.

(** __init__.py:402-408 *)
Definition set_dnd_external (source : id) (f : nat) (d : dnd) : dnd * res (list (id * nat)) :=
  let i := free_number (length (external d)) 1 (external d) in
  let d1 := mkDnd (internal d) (external d ++ [(i, (source, f))]) (handlers d) in
  (d1, init_dnd d1).

(** Gtk: a drop calls every connected handler, also after an exception in one of them.
    [dest_at] is get_dest_row_at_pos for the place of the drop. *)
Fixpoint received (pf : platform) (ord : nat -> list id -> list id) (count : nat) (dest_at : panel -> option (list nat * place))
    (data : list (list nat)) (x : viewed) (p : panel) : viewed * panel :=
  match count with
  | 0 => (x, p)
  | S k => let '(x1, p1, _) := drop_here pf ord (dest_at p) data x p in received pf ord k dest_at data x1 p1
  end.

(** __init__.py:510-515: [data] is bytes and never equal to [''], so that an empty
    drag gives one empty string. *)
Definition carried (paths : list (list nat)) : list (list nat) := match paths with [] => [[]] | _ => paths end.

(** __init__.py:458-550 for a drag from another widget (info > 0): the calls of the
    function, as (function, source node, destination). [g] is the store of this
    widget, [src] that of the other one. Simplification: the functions do not change
    the store of the other widget. *)
Fixpoint resolve (data : list (list nat)) (src : gtk) : res (list id) :=
  match data with
  | [] => Ok []
  | ix :: rest =>
      match row_for ix src with
      | None => Err ValueError
      | Some r => match resolve rest src with Ok l => Ok (r_id r :: l) | e => e end
      end
  end.
Definition drop_external (d : dnd) (info : nat) (drop_info : option (list nat * place)) (data : list (list nat)) (g src : gtk)
  : res (list (nat * id * id)) :=
  match destination drop_info g with
  | Ok (Some dest) =>
      if truthy dest then
        match find (fun z => Nat.eqb (fst z) info) (external d) with
        | Some (_, (_, f)) => match resolve data src with Ok l => Ok (map (fun n => (f, n, dest)) l) | Err e => Err e | Diverge => Diverge end
        | None => Ok []
        end
      else Ok []
  | Ok None => Ok []
  | Err e => Err e
  | Diverge => Diverge
  end.
