(** Model of liblarch/__init__.py (class Tree) and of the wiring between the main
    tree, the views and the counts. *)
From Coq Require Import Ascii.
From Verif Require Import Base MainTree Filters FTree ViewCount.

(** Objects that registered callbacks on the main tree, in order of registration
    (tree.py:52-65: keys grow because nothing in the library deregisters). The
    static main view (viewtree.py:55-65) only forwards the events; it may own a
    hidden FilteredTree, another listener whose position is given
    (viewtree.py:160-162). *)
Inductive listener :=
| LMain (hidden : option nat)
| LView (s : ft)
| LCount (v : vcount).

(** __init__.py:56-63. [s_views] and [s_counts] give, for a name, the position of
    the object in [s_listeners]. *)
Record sys := mkSys {
  s_tree : mtree;
  s_bank : bank;
  s_listeners : list listener;
  s_views : dict nat;
  s_counts : dict nat
}.

Definition new_sys : sys := mkSys empty_tree empty_bank [LMain None] [("main", 0)] [].

(** [l[i] = x] *)
Fixpoint set_nth {A} (i : nat) (x : A) (l : list A) : list A :=
  match l, i with
  | [], _ => []
  | _ :: t, 0 => x :: t
  | y :: t, S j => y :: set_nth j x t
  end.

Section Sys.
  Variable ord : nat -> list id -> list id.

  Definition notify (b : bank) (e : event) (l : listener) : listener * res unit :=
    match l with
    | LMain h => (LMain h, Ok tt)
    | LView s => let '(s1, r) := external_modify ord b (ev_tree e) (ev_id e) s in (LView s1, r)
    | LCount v => let '(v1, r) := vc_event b e v in (LCount v1, r)
    end.

  (** tree.py:74-79: the callbacks in order; an exception stops the rest. *)
  Fixpoint notify_all (b : bank) (e : event) (ls : list listener) : list listener * res unit :=
    match ls with
    | [] => ([], Ok tt)
    | l :: rest =>
        match notify b e l with
        | (l1, Ok _) =>
            let '(rest1, r) := notify_all b e rest in (l1 :: rest1, r)
        | (l1, r) => (l1 :: rest, r)
        end
    end.

  (** The events of one call. When a listener raises, the call stops there: the
      tree stays as it was at that event. *)
  Fixpoint deliver (b : bank) (es : list event) (ls : list listener)
    : list listener * option (mtree * res unit) :=
    match es with
    | [] => (ls, None)
    | e :: rest =>
        match notify_all b e ls with
        | (ls1, Ok _) => deliver b rest ls1
        | (ls1, r) => (ls1, Some (ev_tree e, r))
        end
    end.

  (** A call on the tree. *)
  Definition tree_call (o : mop) (y : sys) : sys * res unit :=
    let '(t1, es, r) := run_op o (s_tree y) in
    match deliver (s_bank y) es (s_listeners y) with
    | (ls, None) => (mkSys t1 (s_bank y) ls (s_views y) (s_counts y), r)
    | (ls, Some (t2, r2)) => (mkSys t2 (s_bank y) ls (s_views y) (s_counts y), r2)
    end.

  (** __init__.py:121-139 with viewtree.py:51-80 and filteredtree.py:51-77. The
      result is the position of the view. Note that the callbacks of the view are
      set after the first refilter, so its signals are seen by nobody: the new
      view starts with an empty trace. *)
  Definition get_viewtree (name : option id) (refresh : bool) (y : sys) : sys * res nat :=
    let create :=
      let s0 := new_ft name in
      let '(s1, r) := if refresh then refilter ord (s_bank y) (s_tree y) s0 else (s0, Ok tt) in
      let s2 := mkFT (froot s1) (fnodes s1) (flat s1) (filters s1) (runonce s1) [] (tick s1) in
      match r with
      | Ok _ =>
          (mkSys (s_tree y) (s_bank y) (s_listeners y ++ [LView s2])
                 (match name with Some x => dset x (length (s_listeners y)) (s_views y) | None => s_views y end)
                 (s_counts y), Ok (length (s_listeners y)))
      | Err e =>
          (mkSys (s_tree y) (s_bank y) (s_listeners y ++ [LView s2]) (s_views y) (s_counts y), Err e)
      | Diverge =>
          (mkSys (s_tree y) (s_bank y) (s_listeners y ++ [LView s2]) (s_views y) (s_counts y), Diverge)
      end in
    match name with
    | Some x => match dget x (s_views y) with Some i => (y, Ok i) | None => create end
    | None => create
    end.

  (** __init__.py:141-149 with viewcount.py:22-38 *)
  Definition get_viewcount (name : option id) (refresh : bool) (y : sys) : sys * res nat :=
    let create :=
      let '(v1, r) := if refresh then vc_refresh (s_bank y) (s_tree y) new_vc else (new_vc, Ok tt) in
      match r with
      | Ok _ =>
          (mkSys (s_tree y) (s_bank y) (s_listeners y ++ [LCount v1]) (s_views y)
                 (match name with Some x => dset x (length (s_listeners y)) (s_counts y) | None => s_counts y end),
           Ok (length (s_listeners y)))
      | Err e =>
          (mkSys (s_tree y) (s_bank y) (s_listeners y ++ [LCount v1]) (s_views y) (s_counts y), Err e)
      | Diverge =>
          (mkSys (s_tree y) (s_bank y) (s_listeners y ++ [LCount v1]) (s_views y) (s_counts y), Diverge)
      end in
    match name with
    | Some x => match dget x (s_counts y) with Some i => (y, Ok i) | None => create end
    | None => create
    end.

  (** viewtree.py:150-174 and 211-219 on the main view: the hidden FilteredTree is
      made when it is first needed. The result is its position. Simplification:
      that FilteredTree has no event handlers, so unlike the others it accepts
      the ids of [reserved]. *)
  Definition main_filtered (y : sys) : sys * res nat :=
    match nth_error (s_listeners y) 0 with
    | Some (LMain (Some i)) => (y, Ok i)
    | Some (LMain None) =>
        match get_viewtree None true y with
        | (y1, Ok i) => (mkSys (s_tree y1) (s_bank y1) (set_nth 0 (LMain (Some i)) (s_listeners y1)) (s_views y1) (s_counts y1), Ok i)
        | (y1, r) => (y1, r)
        end
    | _ => (y, Err AttributeError)
    end.

  (** viewtree.py:272-285 on view [i]; the parameters change the shared filter
      object of the bank. Simplification: ViewTree drops the boolean. *)
  Definition view_apply_filter (i : nat) (name : id) (parameters : option params)
             (reset refresh : bool) (y : sys) : sys * res unit :=
    match nth_error (s_listeners y) i with
    | Some (LView s) =>
        let '(b1, s1, r) := apply_filter ord (s_tree y) name parameters reset refresh (s_bank y) s in
        (mkSys (s_tree y) b1 (set_nth i (LView s1) (s_listeners y)) (s_views y) (s_counts y),
         match r with Ok _ => Ok tt | Err e => Err e | Diverge => Diverge end)
    | Some (LMain _) => (y, Err PyException)
    | _ => (y, Err AttributeError)
    end.

  (** viewtree.py:287-296 *)
  Definition view_unapply_filter (i : nat) (name : id) (refresh : bool) (y : sys) : sys * res unit :=
    match nth_error (s_listeners y) i with
    | Some (LView s) =>
        let '(s1, r) := unapply_filter ord (s_bank y) (s_tree y) name refresh s in
        (mkSys (s_tree y) (s_bank y) (set_nth i (LView s1) (s_listeners y)) (s_views y) (s_counts y),
         match r with Ok _ => Ok tt | Err e => Err e | Diverge => Diverge end)
    | Some (LMain _) => (y, Err PyException)
    | _ => (y, Err AttributeError)
    end.

  (** viewtree.py:298-304 *)
  Definition view_reset_filters (i : nat) (refresh : bool) (y : sys) : sys * res unit :=
    match nth_error (s_listeners y) i with
    | Some (LView s) =>
        let '(s1, r) := reset_filters ord (s_bank y) (s_tree y) refresh s in
        (mkSys (s_tree y) (s_bank y) (set_nth i (LView s1) (s_listeners y)) (s_views y) (s_counts y), r)
    | Some (LMain _) => (y, Err PyException)
    | _ => (y, Err AttributeError)
    end.
End Sys.

(** __init__.py:32-38. A version request is a string of characters; [split_dot]
    is [str.split(".")]. *)
Fixpoint split_dot (s : string) : list string :=
  match s with
  | EmptyString => [EmptyString]
  | String c rest =>
      if Ascii.eqb c "."%char then EmptyString :: split_dot rest
      else match split_dot rest with
           | [] => [String c EmptyString]
           | w :: ws => String c w :: ws
           end
  end.

Definition digit (c : ascii) : option nat :=
  let n := nat_of_ascii c in
  if Nat.leb 48 n && Nat.leb n 57 then Some (n - 48) else None.

(** [int(s)] for a string of decimal digits; anything else gives ValueError
    (Simplification: Python also accepts signs, blanks and underscores, and
    non-ASCII digits). *)
Fixpoint digits (s : string) (acc : nat) : option nat :=
  match s with
  | EmptyString => Some acc
  | String c rest => match digit c with Some d => digits rest (10 * acc + d) | None => None end
  end.
Definition int_of (s : string) : option nat :=
  match s with EmptyString => None | _ => digits s 0 end.

Definition api_version : string := "3.0".

(** __init__.py:35-38 *)
Definition is_compatible (request : string) : res bool :=
  match map int_of (split_dot request), map int_of (split_dot api_version) with
  | [Some major; Some minor], [Some cma; Some cmi] =>
      Ok (Nat.eqb major cma && Nat.leb minor cmi)
  | _, _ => Err ValueError
  end.
