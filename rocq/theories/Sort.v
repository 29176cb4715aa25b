(** Model of the functions of liblarch_gtk/__init__.py (class TreeView) that Gtk calls
    for the rows it compares or draws: _sort_func and _separator_func. *)
From Coq Require Import ZArith.
From Verif Require Import Base MainTree Filters FTree Gtk.

(** tree.py:321-328. No row has the id of the root. Of a node object only its data
    matters here. *)
Definition get_data (T : mtree) (n : id) : res nat :=
  match dget n (nodes T) with Some nd => Ok (data nd) | None => Err ValueError end.

Section Sort.
  (** The function of the application, and the order of the sort column. *)
  Variable func : option (nat -> nat -> bool -> Z).
  Variable order : bool.

  (** __init__.py:350-364 *)
  Definition sort_func (T : mtree) (a b : row) : res Z :=
    match func with
    | Some f =>
        if truthy (r_id a) && truthy (r_id b) then
          match get_data T (r_id a) with
          | Ok x =>
              match get_data T (r_id b) with
              | Ok y => Ok (f x y order)
              | Err e => Err e
              | Diverge => Diverge
              end
          | Err e => Err e
          | Diverge => Diverge
          end
        else Ok (-1)%Z
    | None => Ok (-1)%Z
    end.

  Definition same_level (a b : row) : bool := parent_is (r_parent a) b.

  (** Gtk: the store compares rows of the same level, in some order; here every row
      with every other one. An exception of the comparison is the result. *)
  Fixpoint first_error {A} (l : list (res A)) : res unit :=
    match l with
    | [] => Ok tt
    | Ok _ :: rest => first_error rest
    | Err e :: _ => Err e
    | Diverge :: _ => Diverge
    end.
  Definition compare_rows (T : mtree) (g : gtk) : res unit :=
    first_error (flat_map (fun a => map (sort_func T a) (filter (fun b => same_level a b && negb (Nat.eqb (r_addr a) (r_addr b))) (rows g))) (rows g)).

  (** The Gtk model handles a signal, and the store, which sorts itself
      (__init__.py:186-189 and 302-308), compares its rows after an insertion or
      a change. *)
  Definition sort_signal (pf : platform) (T : mtree) (x : sig) (g : gtk) : gtk * res unit :=
    match on_signal pf T x g with
    | (g1, Ok _) => (g1, match x with SAdded _ _ | SModified _ _ => compare_rows T g1 | _ => Ok tt end)
    | (g1, r) => (g1, r)
    end.

  (** __init__.py:555-565, for a valid iterator; [sep] is the function of the
      application, None if there is none. *)
  Definition separator_func (sep : option (nat -> bool)) (T : mtree) (r : row) : res bool :=
    match get_data T (r_id r) with
    | Ok x => Ok (match sep with Some f => f x | None => false end)
    | Err e => Err e
    | Diverge => Diverge
    end.
End Sort.
