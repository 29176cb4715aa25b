(** Property theorems about node objects and about callbacks that call the tree. *)
From Verif Require Import Base MainTree Spec Objects SpecObjects ObjFacts ObjAgain ObjTail ObjTree ObjCases.

(** C76. The functions registered for events may call the tree themselves while an event
    is handled, may go on after an exception, and may raise: as long as only objects that
    were never in the tree are added, no node of the tree is above itself. *)
Theorem C76_acyclic : forall react s, obeys first_add react -> played first_add react s -> forall x, ~ above (fst s) x x.
Proof. exact never_above. Qed.
Print Assumptions C76_acyclic.
Example C76_acyclic_example :
  obeys first_add keeper /\ played first_add keeper kept /\ In (Made (CAdd 4 (Some "box")) (Ok tt)) (snd kept) /\
  In (Made (CRelate "d" "box") (Err Circular)) (snd kept) /\ above (fst kept) "box" "d".
Proof. exact case_keeper. Qed.

(** C76. In such a history the walk over the ancestors ends, whatever its arguments, and
    tells whether the relation would close a circle. *)
Theorem C76_walk : forall react s, obeys first_add react -> played first_add react s -> forall p c,
  exists k v, (forall j, walk (k + j) (fst s) c [p] = Ok v) /\ (v = true <-> p = c \/ above (fst s) c p).
Proof. exact walk_stops. Qed.
Print Assumptions C76_walk.
Example C76_walk_example :
  obeys first_add keeper /\ played first_add keeper kept /\ walk 40 (fst kept) "box" ["d"] = Ok true /\ walk 40 (fst kept) "a" ["d"] = Ok false.
Proof. exact case_keeper_walk. Qed.

(** C77. Objects that were removed keep relations; adding them again, with no callback
    that does anything and no call that raises, can close a circle. Relating a
    node of the circle to another then never ends. *)
Theorem C77_circle_refuted : exists react s, silent react /\ played own_ids react s /\ all_returned (snd s) /\ above (fst s) "x" "x" /\
  forall fuel, snd (exec fuel react (CRelate "x" "z") s) = Diverge.
Proof. exact (ex_intro _ look (ex_intro _ circle circle_case)). Qed.
Print Assumptions C77_circle_refuted.

(** C77. Without recursive deletions there is no circle.
    What is missing: recursive deletions, for which it is false. *)
Theorem C77_acyclic_partial : forall react s, silent react -> played one_object react s -> forall x, ~ above (fst s) x x.
Proof. exact again_acyclic. Qed.
Print Assumptions C77_acyclic_partial.
Example C77_acyclic_example :
  silent look /\ played one_object look returned_world /\ above (fst returned_world) "c" "b" /\
  In (Made (CAdd 2 (Some "a")) (Ok tt)) (snd returned_world) /\ In (Made (CRelate "b" "c") (Err Circular)) (snd returned_world).
Proof. exact case_again. Qed.

(** C77. Without recursive deletions the walk over the ancestors ends with the right
    answer. What is missing: recursive deletions. *)
Theorem C77_walk_partial : forall react s, silent react -> played one_object react s -> forall p c,
  exists k v, (forall j, walk (k + j) (fst s) c [p] = Ok v) /\ (v = true <-> p = c \/ above (fst s) c p).
Proof. exact again_walk. Qed.
Print Assumptions C77_walk_partial.
Example C77_walk_example :
  silent look /\ played one_object look returned_world /\ walk 40 (fst returned_world) "c" ["b"] = Ok true /\ walk 40 (fst returned_world) "b" ["c"] = Ok false.
Proof. exact case_again_walk. Qed.

(** C77. Without recursive deletions, every parent that an object has, in the tree or
    not, is in the tree and lists it. What is missing: recursive deletions. *)
Theorem C77_parents_partial : forall react s, silent react -> played one_object react s -> forall a o p,
  nth_error (heap (fst s)) a = Some o -> In p (o_par o) -> exists q, stored (fst s) p q /\ In (o_id o) (o_chi q).
Proof. exact again_parents. Qed.
Print Assumptions C77_parents_partial.
Example C77_parents_example :
  silent look /\ played one_object look gone_world /\ dget "y" (names (fst gone_world)) = None /\
  option_map o_par (nth_error (heap (fst gone_world)) 3) = Some ["x"].
Proof. exact case_gone. Qed.

(** C78. A callback that puts the child of a node below it again while that node is
    deleted makes the child leave the tree's structure, although all calls return. *)
Theorem C78_lost_refuted : exists react s, obeys first_add react /\ played first_add react s /\ all_returned (snd s) /\ lost (fst s) "c".
Proof. exact (ex_intro _ restorer (ex_intro _ loss loss_case)). Qed.
Print Assumptions C78_lost_refuted.

(** C78. A callback that moves the child of a node while that node is deleted makes the
    root list the child twice. *)
Theorem C78_twice_refuted : exists react s, obeys first_add react /\ played first_add react s /\ all_returned (snd s) /\ ~ NoDup (top (fst s)).
Proof. exact (ex_intro _ shuttle (ex_intro _ doubled doubled_case)). Qed.
Print Assumptions C78_twice_refuted.

(** C78. A callback that deletes the child of a node while that node is deleted makes the
    deletion raise KeyError and the node stay. *)
Theorem C78_deletion_refuted : exists react s, obeys first_add react /\ played first_add react s /\
  In (Made (CRemove "x" false) (Err KeyError)) (snd s) /\ exists o, stored (fst s) "x" o.
Proof. exact (ex_intro _ cleaner (ex_intro _ cleaned cleaned_case)). Qed.
Print Assumptions C78_deletion_refuted.

(** C78. When callbacks call the tree only at the end of a call (when a node was added; or
    deleted, if nodes are not deleted recursively), the tree is one that the same
    sort of calls produce one after the other with callbacks that do nothing.
    What is missing: calls made when a node is announced as modified or in the middle of a
    recursive deletion. *)
Theorem C78_sequential_partial : forall P react, obeys P react -> acts_at_ends P react -> forall s, played P react s ->
  exists watch s', silent watch /\ played P watch s' /\ fst s' = fst s.
Proof. exact ends_sequential. Qed.
Print Assumptions C78_sequential_partial.
Example C78_sequential_example : obeys one_at_a_time closer /\ acts_at_ends one_at_a_time closer /\ played one_at_a_time closer closed /\
  In (Made (CRelate "box" "c") (Ok tt)) (snd closed) /\ In (Made (CRemove "b" false) (Ok tt)) (snd closed).
Proof. exact case_closer. Qed.

(** C78. When callbacks call the tree only at the end of a call, objects are not added
    again, and methods are called for objects before they are added or while they are
    in the tree: the tree is one that the calls of MainTree produce, one after the
    other, and [Q] holds for each of these calls if it holds for the calls that are made.
    So all theorems about [reach] hold for it.
    What is missing: as for C78_sequential_partial. *)
Theorem C78_tree_partial : forall Q react s, obeys (proper_and Q) react -> acts_at_ends (proper_and Q) react -> completed (proper_and Q) react s ->
  reach (fun t o => fresh_named t o /\ Q t o) (tree_of (fst s)).
Proof. exact ends_tree. Qed.
Print Assumptions C78_tree_partial.
Example C78_tree_example : obeys (proper_and calm) filer /\ acts_at_ends (proper_and calm) filer /\ completed (proper_and calm) filer filed /\
  In (Made (CRelate "box" "c") (Ok tt)) (snd filed) /\ In (Made (CRelate "b" "a") (Err Circular)) (snd filed) /\
  root_children (tree_of (fst filed)) = ["box"] /\ get_parents (tree_of (fst filed)) "d" = ["b"].
Proof. exact case_filer. Qed.

(** C78. For ordinary applications (see C05) then no node is lost, the root lists no node
    twice, and parents and children agree. What is missing: as for C78_sequential_partial. *)
Theorem C78_root_partial : forall react s, obeys (proper_and calm) react -> acts_at_ends (proper_and calm) react -> completed (proper_and calm) react s ->
  let t := tree_of (fst s) in
  NoDup (root_children t) /\ (forall x, In x (root_children t) <-> has_node t x = true /\ get_parents t x = []) /\
  (forall x, has_node t x = true -> exists r, In r (root_children t) /\ desc t r x) /\
  (forall p c, In p (get_parents t c) <-> In c (get_children t p)).
Proof. exact ends_root. Qed.
Print Assumptions C78_root_partial.
Example C78_root_example : obeys (proper_and calm) filer /\ acts_at_ends (proper_and calm) filer /\ completed (proper_and calm) filer filed /\
  In (Made (CRelate "box" "c") (Ok tt)) (snd filed) /\ In (Made (CRelate "b" "a") (Err Circular)) (snd filed) /\
  root_children (tree_of (fst filed)) = ["box"] /\ get_parents (tree_of (fst filed)) "d" = ["b"].
Proof. exact case_filer. Qed.
