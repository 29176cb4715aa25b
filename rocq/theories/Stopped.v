(** The wiring of Api.v again, with functions of the application that raise. What
    Api.v leaves out: a function that the application registered on the main view
    (viewtree.py:54-65, 111-121) or on a count (viewcount.py:66-69, 102-104) raises;
    the exception passes through the loop of tree.py:74-79 and ends the call. *)
From Verif Require Import Base MainTree Filters FTree ViewCount Api.

(** What a function of the application raises, if anything: given the position of
    the view or count that calls it and the event of the tree. *)
Definition outcry := nat -> event -> option exn.

(** Whether a listener calls functions of the application: the main view always does
    (viewtree.py:57-65), a count if it has any and a node came or went
    (viewcount.py:92-104). Simplification: functions registered on the other views
    do not raise here (see FEmit.v). *)
Definition calls_out (l l1 : listener) : bool :=
  match l, l1 with
  | LMain _, _ => true
  | LCount v, LCount v1 => negb (Nat.eqb (length (notified v)) (length (notified v1)))
  | _, _ => false
  end.

Section Stopped.
  Variable ord : nat -> list id -> list id.
  Variable bad : outcry.

  (** A count keeps its new list of nodes when its function raises
      (viewcount.py:94-95, 99-100). Simplification: [notified] then holds all its
      functions, though those after the raising one were not called. *)
  Definition notify_x (b : bank) (i : nat) (e : event) (l : listener) : listener * res unit :=
    match notify ord b e l with
    | (l1, Ok _) =>
        (l1, if calls_out l l1 then match bad i e with Some x => Err x | None => Ok tt end else Ok tt)
    | (l1, r) => (l1, r)
    end.

  (** tree.py:74-79, from position [i] on *)
  Fixpoint notify_from (b : bank) (i : nat) (e : event) (ls : list listener) : list listener * res unit :=
    match ls with
    | [] => ([], Ok tt)
    | l :: rest =>
        match notify_x b i e l with
        | (l1, Ok _) => let '(rest1, r) := notify_from b (S i) e rest in (l1 :: rest1, r)
        | (l1, r) => (l1 :: rest, r)
        end
    end.

  Fixpoint deliver_x (b : bank) (es : list event) (ls : list listener) : list listener * option (mtree * res unit) :=
    match es with
    | [] => (ls, None)
    | e :: rest =>
        match notify_from b 0 e ls with
        | (ls1, Ok _) => deliver_x b rest ls1
        | (ls1, r) => (ls1, Some (ev_tree e, r))
        end
    end.

  (** A call on the tree, as [tree_call] in Api.v. *)
  Definition tree_call_x (o : mop) (y : sys) : sys * res unit :=
    let '(t1, es, r) := run_op o (s_tree y) in
    match deliver_x (s_bank y) es (s_listeners y) with
    | (ls, None) => (mkSys t1 (s_bank y) ls (s_views y) (s_counts y), r)
    | (ls, Some (t2, r2)) => (mkSys t2 (s_bank y) ls (s_views y) (s_counts y), r2)
    end.
End Stopped.
