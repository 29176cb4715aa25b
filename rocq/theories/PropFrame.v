(** Properties of the main tree: what calls leave as it is, and exactly what
    additions, disabling and announcements do. *)
From Verif Require Import Base MainTree Spec SpecFrame Witness FrameFacts AddFacts DisableFacts PrintFacts.

(** C48. Calls that are not made for it change neither the data nor the flags of a
    node, whatever the history and whether they raise or not. *)
Theorem C48_objects : forall t, reachx any_fresh t -> forall o, fresh_add o -> forall x,
  has_node t x = true -> has_node (after o t) x = true ->
  ((forall v, o <> SetData x v) -> data_at (after o t) x = data_at t x) /\
  (forall v, o = SetData x v -> data_at (after o t) x = Some v) /\
  ((forall b, o <> SetParentsEnabled x b) -> parents_enabled (after o t) x = parents_enabled t x) /\
  (forall b, o = SetParentsEnabled x b -> outcome o t = Ok tt -> parents_enabled (after o t) x = b) /\
  ((forall b, o <> SetChildrenEnabled x b) -> children_enabled (after o t) x = children_enabled t x) /\
  (forall b, o = SetChildrenEnabled x b -> outcome o t = Ok tt -> children_enabled (after o t) x = b).
Proof. exact call_frame. Qed.
Print Assumptions C48_objects.
Example C48_objects_example : reachx any_fresh diamond /\ has_node (after (DelNode "b" false) diamond) "d" = true /\
  data_at (after (SetData "d" 7) diamond) "d" = Some 7 /\ data_at (after (DelNode "b" false) diamond) "d" = data_at diamond "d".
Proof. exact (conj diamond_any (conj eq_refl (conj eq_refl eq_refl))). Qed.

(** C48. The list of nodes: additions append, deletions keep the order, other calls
    leave it. *)
Theorem C48_nodes : forall t, reachx any_fresh t -> forall o, fresh_add o ->
  get_all_nodes (after o t) =
    match o with
    | AddNode n _ _ => add_last n (get_all_nodes t)
    | DelNode _ _ => filter (has_node (after o t)) (get_all_nodes t)
    | _ => get_all_nodes t
    end.
Proof. exact nodes_after. Qed.
Print Assumptions C48_nodes.
Example C48_nodes_example : reachx any_fresh diamond /\ get_all_nodes (after (add "e" (Some "d")) diamond) = ["a"; "b"; "c"; "d"; "e"].
Proof. exact (conj diamond_any eq_refl). Qed.

(** C48. An added node keeps the data and the flags its object had. *)
Theorem C48_added : forall t, reachx any_fresh t -> forall n nd po, app_node n nd -> has_node t n = false ->
  let t' := after (AddNode n nd po) t in
  data_at t' n = Some (data nd) /\ parents_enabled t' n = pen nd /\ children_enabled t' n = cen nd.
Proof. exact added_object. Qed.
Print Assumptions C48_added.
Example C48_added_example : reachx any_fresh diamond /\
  app_node "e" (detached_set_children_enabled false (new_node 5)) /\ has_node diamond "e" = false /\
  children_enabled (after (AddNode "e" (detached_set_children_enabled false (new_node 5)) (Some "d")) diamond) "e" = false.
Proof. exact (conj diamond_any (conj (an_cen _ _ _ (an_new _ _)) (conj eq_refl eq_refl))). Qed.

(** C49. Adding a node relates it exactly as declared, and nothing else. *)
Theorem C49_addition : forall t, reachx any_fresh t -> forall n nd po, app_node n nd -> has_node t n = false ->
  outcome (AddNode n nd po) t = Ok tt ->
  let t' := after (AddNode n nd po) t in
  events (AddNode n nd po) t = [Ev EAdded n t'] /\
  (forall x, x <> n -> drop n (parents t' x) = drop n (parents t x)) /\
  (forall x, x <> n -> drop n (childs t' x) = drop n (childs t x)) /\
  (forall p, In p (parents t' n) -> po = Some p \/ In (Some p, n) (pend t ++ npend nd)) /\
  (forall c, In c (childs t' n) -> In (Some n, c) (pend t ++ npend nd)) /\
  (forall p, po = Some p -> if has_node t' p then In p (parents t' n) else In (Some p, n) (pend t')) /\
  (forall p c, In (Some p, c) (pend t ++ npend nd) -> p = n \/ c = n ->
     if has_node t' p && has_node t' c then In p (parents t' c) \/ anc t' c p else In (Some p, c) (pend t')).
Proof. exact add_exact. Qed.
Print Assumptions C49_addition.
Example C49_example : reachx any_fresh half_built /\ has_node half_built "c" = false /\ pend half_built = [(Some "p", "c")] /\
  outcome (AddNode "c" (detached_add_child "c" "k" (new_node 0)) None) half_built = Ok tt /\
  parents (after (AddNode "c" (detached_add_child "c" "k" (new_node 0)) None) half_built) "c" = ["p"] /\
  pend (after (AddNode "c" (detached_add_child "c" "k" (new_node 0)) None) half_built) = [(Some "c", "k")].
Proof. exact (conj waiting_any (conj eq_refl (conj eq_refl (conj eq_refl (conj eq_refl eq_refl))))). Qed.

(** C50. Disabling the parents of a node cuts it off from them. *)
Theorem C50_disable_parents : forall t, reachx fresh_plain t -> forall n, has_node t n = true ->
  let o := SetParentsEnabled n false in let t' := after o t in
  outcome o t = Ok tt /\ get_all_nodes t' = get_all_nodes t /\
  (forall x, get_parents t' x = if String.eqb x n then [] else get_parents t x) /\
  (forall x, get_children t' x = if mem x (get_parents t n) then drop n (get_children t x) else get_children t x) /\
  (forall x, In x (root_children t') <-> In x (root_children t) \/ x = n /\ get_parents t n <> []) /\
  map kind_id (events o t) = flat_map (fun p => [(EModified, p); (EModified, n)]) (get_parents t n).
Proof. exact disable_parents. Qed.
Print Assumptions C50_disable_parents.
Example C50_parents_example : reachx fresh_plain diamond /\ has_node diamond "d" = true /\
  get_parents diamond "d" = ["b"; "c"] /\ root_children (after (SetParentsEnabled "d" false) diamond) = ["a"; "d"].
Proof. exact (conj diamond_plain (conj eq_refl (conj eq_refl eq_refl))). Qed.

(** C50. Disabling its children cuts off the children. *)
Theorem C50_disable_children : forall t, reachx fresh_plain t -> forall n, has_node t n = true ->
  let o := SetChildrenEnabled n false in let t' := after o t in
  outcome o t = Ok tt /\ get_all_nodes t' = get_all_nodes t /\
  (forall x, get_children t' x = if String.eqb x n then [] else get_children t x) /\
  (forall x, get_parents t' x = if mem x (get_children t n) then drop n (get_parents t x) else get_parents t x) /\
  (forall x, In x (root_children t') <->
     In x (root_children t) \/ In x (get_children t n) /\ parents_enabled t x = true /\ get_parents t' x = []) /\
  map kind_id (events o t) = flat_map (fun c => [(EModified, n); (EModified, c)]) (get_children t n).
Proof. exact disable_children. Qed.
Print Assumptions C50_disable_children.
Example C50_children_example : reachx fresh_plain diamond /\ has_node diamond "a" = true /\
  get_children diamond "a" = ["b"; "c"] /\ root_children (after (SetChildrenEnabled "a" false) diamond) = ["a"; "b"; "c"].
Proof. exact (conj diamond_plain (conj eq_refl (conj eq_refl eq_refl))). Qed.

(** C50. Enabling them makes no relation and sends no event. *)
Theorem C50_enable_parents : forall t n, has_node t n = true ->
  let o := SetParentsEnabled n true in let t' := after o t in
  outcome o t = Ok tt /\ events o t = [] /\ get_all_nodes t' = get_all_nodes t /\ root_children t' = root_children t /\
  (forall x, parents t' x = parents t x /\ childs t' x = childs t x).
Proof. exact enable_parents. Qed.
Print Assumptions C50_enable_parents.
Example C50_enable_parents_example : has_node diamond "d" = true /\ parents (after (SetParentsEnabled "d" true) diamond) "d" = ["b"; "c"].
Proof. exact (conj eq_refl eq_refl). Qed.

Theorem C50_enable_children : forall t n, has_node t n = true ->
  let o := SetChildrenEnabled n true in let t' := after o t in
  outcome o t = Ok tt /\ events o t = [] /\ get_all_nodes t' = get_all_nodes t /\ root_children t' = root_children t /\
  (forall x, parents t' x = parents t x /\ childs t' x = childs t x).
Proof. exact enable_children. Qed.
Print Assumptions C50_enable_children.
Example C50_enable_children_example : has_node diamond "a" = true /\ childs (after (SetChildrenEnabled "a" true) diamond) "a" = ["b"; "c"].
Proof. exact (conj eq_refl eq_refl). Qed.

(** C50. While they are disabled the node reports none; otherwise it has some exactly
    when its list is not empty. *)
Theorem C50_answers : forall t n,
  (parents_enabled t n = false -> get_parents t n = [] /\ has_parent t n = false) /\
  (parents_enabled t n = true -> (has_parent t n = true <-> parents t n <> [])) /\
  (children_enabled t n = false -> get_children t n = [] /\ has_child t n = false) /\
  (children_enabled t n = true -> (has_child t n = true <-> childs t n <> [])).
Proof. exact flags_answers. Qed.
Print Assumptions C50_answers.
Example C50_answers_example : children_enabled (after (SetChildrenEnabled "a" false) diamond) "a" = false /\ children_enabled diamond "a" = true /\ has_child diamond "a" = true /\ parents_enabled diamond "a" = true /\ has_parent diamond "a" = false.
Proof. exact (conj eq_refl (conj eq_refl (conj eq_refl (conj eq_refl eq_refl)))). Qed.

(** C51. Announcing a modification sends one event and changes nothing, *)
Theorem C51_modify : forall t n, n <> main_root -> has_node t n = true ->
  run_op (ModifyNode n) t = (t, [Ev EModified n t], Ok tt).
Proof. exact modify_exact. Qed.
Print Assumptions C51_modify.
Example C51_modify_example : "b" <> main_root /\ has_node diamond "b" = true.
Proof. exact (conj (fun H => eq_ind "b" (fun x => match x with "b" => True | _ => False end) I main_root H) eq_refl). Qed.

(** changing the data moreover changes the data of this node, before the event, *)
Theorem C51_data : forall t n v, n <> main_root -> has_node t n = true ->
  let o := SetData n v in let t' := after o t in
  outcome o t = Ok tt /\ events o t = [Ev EModified n t'] /\ same_tree t t' /\ pend t' = pend t /\
  data_at t' n = Some v /\ forall x, x <> n -> dget x (nodes t') = dget x (nodes t).
Proof. exact data_law. Qed.
Print Assumptions C51_data.
Example C51_data_example : "b" <> main_root /\ has_node diamond "b" = true /\ data_at (after (SetData "b" 3) diamond) "b" = Some 3.
Proof. exact (conj (fun H => eq_ind "b" (fun x => match x with "b" => True | _ => False end) I main_root H) (conj eq_refl eq_refl)). Qed.

(** and refresh_all announces every node once, in the order of the tree. *)
Theorem C51_refresh : forall t, run_op RefreshAll t =
  (t, map (fun n => Ev EModified n t) (filter (fun n => negb (String.eqb n main_root)) (get_all_nodes t)), Ok tt).
Proof. exact refresh_exact. Qed.
Print Assumptions C51_refresh.
Example C51_refresh_example : map kind_id (events RefreshAll diamond) =
  [(EModified, "a"); (EModified, "b"); (EModified, "c"); (EModified, "d")].
Proof. exact eq_refl. Qed.

(** C52. print_tree terminates and lists the tree depth first. *)
Theorem C52_print : forall t, reach calm t -> exists ls, print_tree t = Ok ls /\ below t 1 (root_children t) ls.
Proof. exact print_lists. Qed.
Print Assumptions C52_print.
Example C52_example : reach calm diamond /\
  print_tree diamond = Ok [(1, "a"); (2, "b"); (3, "d"); (2, "c"); (3, "d")].
Proof. exact (conj diamond_calm eq_refl). Qed.
