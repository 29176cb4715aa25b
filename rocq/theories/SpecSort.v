(** Vocabulary of the property theorems about looking up known nodes. Definitions only. *)
From Verif Require Import Base MainTree Spec Filters FTree SpecApi SpecView SpecViewing Widget.

(** Looking up all nodes of all paths in the tree. *)
Definition look_up (T : mtree) (cs : list (list id)) : res unit :=
  if forallb (forallb (fun x => match dget x (nodes T) with Some _ => true | None => false end)) cs then Ok tt else Err ValueError.

(** A client that keeps the paths of a view, and looks up all nodes it knows whenever
    it is told that a node was added or modified. *)
Definition attentive (T : mtree) (x : sig) (cs : list (list id)) : list (list id) * res unit :=
  match x with
  | SAdded _ q => (cs ++ [q], look_up T (cs ++ [q]))
  | SDeleted _ q => (filter (fun p => negb (path_eqb p q)) cs, Ok tt)
  | SModified _ _ => (cs, look_up T cs)
  | SRun _ _ => (cs, Ok tt)
  end.

(** Supported calls after such a client was connected to a view. *)
Inductive attended (ord : nat -> list id -> list id) : viewed -> list (list id) -> Prop :=
| attend_start : forall x x' cs r, viewing ord x -> client_connect attentive x [] = (x', cs, r) -> attended ord x' cs
| attend_call : forall x cs c x' cs' r, attended ord x cs -> supported x c -> client_call ord attentive c x cs = (x', cs', r) -> attended ord x' cs'.
