(** Vocabulary of the property theorems about print_tree of the store. Definitions
    only. *)
From Verif Require Import Base Gtk SpecGtk.

(** The rows form a forest. *)
Definition forest (rs : list row) : Prop := NoDup (map r_addr rs) /\ forall r, In r rs -> exists l, at_path rs r l.

(** [children_of rs p l]: [l] are the rows below [p], or the top rows, in the order of
    the store. *)
Definition children_of (rs : list row) (p : option nat) : list row :=
  filter (fun r => match p, r_parent r with None, None => true | Some a, Some b => Nat.eqb a b | _, _ => false end) rs.

(** [depth_first rs d l ls]: [ls] lists the rows [l], each one directly followed by what
    is below it, and each with its depth; the rows [l] have depth [d]. *)
Inductive depth_first (rs : list row) (d : nat) : list row -> list (nat * row) -> Prop :=
| df_nil : depth_first rs d [] []
| df_cons : forall r l l1 l2, depth_first rs (S d) (children_of rs (Some (r_addr r))) l1 -> depth_first rs d l l2 ->
    depth_first rs d (r :: l) ((d, r) :: l1 ++ l2).

(** A line: an arrow for each level, a space and the id. *)
Fixpoint arrows (d : nat) (n : id) : string :=
  match d with 0 => (" " ++ n)%string | S k => ("=>" ++ arrows k n)%string end.

(** [branches p qs]: paths directly below [p], each one directly followed by the paths
    below it. *)
Inductive branches : list id -> list (list id) -> Prop :=
| branches_nil : forall p, branches p []
| branches_cons : forall p n l1 l2, branches (p ++ [n]) l1 -> branches p l2 -> branches p ((p ++ [n]) :: l1 ++ l2).
