(** Concrete cases for the theorems about moving nodes. *)
From Verif Require Import Base MainTree Spec SpecMove Witness.

Definition many_parents : mtree :=
  hist [add "a" None; add "b" None; add "c" None; add "d" None; add "e" None; add "z" None; add "n" (Some "a");
        NewRelationship "b" "n"; NewRelationship "c" "n"; NewRelationship "d" "n"; NewRelationship "e" "n"].

Lemma many_example : reach calm many_parents /\ get_parents many_parents "n" = ["a"; "b"; "c"; "d"; "e"] /\
  get_parents (after (MoveNode "n" (Some "z")) many_parents) "n" = ["b"; "d"; "z"] /\
  get_parents (after (MoveNode "n" (Some "b")) many_parents) "n" = ["b"; "d"] /\
  get_parents (after (MoveNode "n" (Some "c")) many_parents) "n" = ["b"; "c"; "e"].
Proof. split; [apply run_calm; reflexivity|]. repeat split; reflexivity. Qed.

Lemma refused_loses : exists t n p, reach calm t /\ has_node t n = true /\ has_node t p = true /\
  outcome (MoveNode n (Some p)) t = Err Circular /\
  get_parents t n <> [] /\ get_parents (after (MoveNode n (Some p)) t) n = [] /\ ~ In n (root_children t) /\
  In n (root_children (after (MoveNode n (Some p)) t)).
Proof.
  exists diamond, "b", "d". split; [apply diamond_calm|]. do 3 (split; [reflexivity|]). split; [vm_compute; discriminate|].
  split; [reflexivity|]. split; vm_compute; [intros [H|[]]; discriminate|auto].
Qed.
