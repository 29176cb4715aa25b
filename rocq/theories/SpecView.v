(** Vocabulary of the property theorems about views: what a client that listens to
    a view knows, and what a view should look like. Definitions only. *)
From Verif Require Import Base MainTree Filters FTree.

(** The stored children and parents of a node of the view; empty for other ids. *)
Definition kids (s : ft) (x : id) : list id := match dget x (fnodes s) with Some e => fchi e | None => [] end.
Definition pars (s : ft) (x : id) : list id := match dget x (fnodes s) with Some e => fpar e | None => [] end.

(** [downward ch x l]: each element of [l] is a child, for [ch], of the one before,
    the first one a child of [x]. *)
Fixpoint downward (ch : id -> list id) (x : id) (l : list id) : Prop :=
  match l with
  | [] => True
  | y :: rest => In y (ch x) /\ downward ch y rest
  end.

(** The paths of a view: the non-empty descending chains from its root. *)
Definition view_path (s : ft) (l : list id) : Prop := l <> [] /\ downward (kids s) (froot s) l.

(** A client keeps a list of paths. [hear cs x cs']: it has [cs], the signal [x]
    makes sense to it, and it has [cs'] afterwards. *)
Inductive hear : list (list id) -> sig -> list (list id) -> Prop :=
| hear_added : forall cs q n, ~ In (q ++ [n]) cs -> q = [] \/ In q cs ->
    hear cs (SAdded n (q ++ [n])) (cs ++ [q ++ [n]])
| hear_deleted : forall cs q n, In (q ++ [n]) cs -> (forall below, below <> [] -> ~ In (q ++ [n] ++ below) cs) ->
    hear cs (SDeleted n (q ++ [n])) (filter (fun p => negb (path_eqb p (q ++ [n]))) cs)
| hear_modified : forall cs q n, In (q ++ [n]) cs -> hear cs (SModified n (q ++ [n])) cs
| hear_run : forall cs n a, hear cs (SRun n a) cs.

Inductive hear_all : list (list id) -> list sig -> list (list id) -> Prop :=
| hear_none : forall cs, hear_all cs [] cs
| hear_more : forall cs l cs1 x cs2, hear_all cs l cs1 -> hear cs1 x cs2 -> hear_all cs (l ++ [x]) cs2.

(** The signals sent between two states of a view. *)
Definition news (s s' : ft) : list sig := skipn (length (sent s)) (sent s').

(** A client that heard all signals has exactly the paths of the view. *)
Definition mirrored (s : ft) : Prop := exists cs, hear_all [] (sent s) cs /\ NoDup cs /\ forall l, In l cs <-> view_path s l.
