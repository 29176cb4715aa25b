(** Model of print_tree of liblarch_gtk/treemodel.py. *)
From Verif Require Import Base MainTree Filters FTree Gtk.

(** treemodel.py:107-110. The stack has the newest element first. Gtk: an iterator is
    the address of a row. *)
Definition push_to_stack (level : nat) (it : option nat) (stack : list (nat * nat)) : list (nat * nat) :=
  match it with Some a => (level, a) :: stack | None => stack end.

(** Gtk: iter_next and iter_children of the row [r]. *)
Definition iter_next (g : gtk) (r : row) : option nat := next_row (r_addr r) (store_children (r_parent r) g).
Definition iter_children (g : gtk) (a : option nat) : option nat := option_map r_addr (hd_error (store_children a g)).

(** treemodel.py:118: [print("=>" * level, id)]. *)
Definition store_line (level : nat) (n : id) : string := (String.concat "" (repeat "=>" level) ++ " " ++ n)%string.

(** treemodel.py:115-122: the loop; [fuel] bounds its number of rounds. *)
Fixpoint store_loop (fuel : nat) (g : gtk) (stack : list (nat * nat)) : res (list string) :=
  match stack with
  | [] => Ok []
  | (level, a) :: rest =>
      match fuel with
      | 0 => Diverge
      | S f =>
          match row_at a g with
          | None => Err PyException
          | Some r =>
              match store_loop f g (push_to_stack (S level) (iter_children g (Some a)) (push_to_stack level (iter_next g r) rest)) with
              | Ok ls => Ok (store_line level (r_id r) :: ls)
              | x => x
              end
          end
      end
  end.

(** treemodel.py:103-123, without the header and the two lines of 50 signs. The loop
    is given more rounds than there are rows. *)
Definition store_print (g : gtk) : res (list string) :=
  store_loop (S (length (rows g))) g (push_to_stack 0 (iter_children g None) []).
