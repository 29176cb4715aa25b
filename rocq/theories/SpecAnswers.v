(** Vocabulary of the property theorems about what a view with filters answers.
    Definitions only. *)
From Verif Require Import Base MainTree Spec Filters SpecApi SpecView.

(** The nodes directly below [n] among the nodes [shown] of the tree, or at the top
    for None; [flat]: all are at the top. *)
Definition rows_below (flat : bool) (t : mtree) (shown : list id) (n : option id) : list id :=
  match n with
  | Some x => if flat then [] else filter (fun c => mem x (get_parents t c)) shown
  | None => if flat then shown else filter (fun c => negb (existsb (fun p => mem p shown) (get_parents t c))) shown
  end.

(** The parents of a shown node that are shown. *)
Definition rows_above (flat : bool) (t : mtree) (shown : list id) (x : id) : list id :=
  if flat then [] else filter (fun p => mem p shown) (get_parents t x).

(** The ways down from [n], one step or more. *)
Definition way_down (flat : bool) (t : mtree) (shown : list id) (n : option id) (q : list id) : Prop :=
  match q with
  | [] => False
  | c :: rest => In c (rows_below flat t shown n) /\ downward (fun a => rows_below flat t shown (Some a)) c rest
  end.

(** None, or a node that is shown. *)
Definition among (shown : list id) (n : option id) : Prop := match n with None => True | Some x => In x shown end.
