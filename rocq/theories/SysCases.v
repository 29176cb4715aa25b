(** Concrete cases for the theorems about the whole library and about walking
    through views. *)
From Coq Require Import Permutation.
From Verif Require Import Base BaseFacts MainTree Spec MainFacts Filters FTree ViewCount Api ViewApi SpecApi SpecView SpecViewing SpecNav SpecSys
  Witness ApiWitness ViewWitness ViewCases NavFacts.

(** *** Walking through the diamond *)
Lemma nav_case_children : is_displayed (snd vshow) "a" = true /\ view_all_children (snd vshow) (Some "a") = Ok ["b"; "c"] /\
  view_all_children (snd vshow) None = Ok ["a"] /\ is_displayed (snd vshow) "x" = false.
Proof. vm_compute. auto. Qed.
Lemma nav_case_has : is_displayed (snd vshow) "a" = true /\ view_has_child (snd vshow) "a" = Ok true /\ view_has_child (snd vshow) "d" = Ok false.
Proof. vm_compute. auto. Qed.
Lemma nav_case_nth : nth_error (kids (snd vshow) "a") 1 = Some "c" /\ nth_error (kids (snd vshow) "a") 2 = None.
Proof. vm_compute. auto. Qed.
Lemma nav_case_parents : sound (snd vshow) /\ is_displayed (snd vshow) "d" = true /\ view_parents (snd vshow) "d" = Ok ["b"; "c"] /\
  view_parents (snd vshow) "a" = Ok [].
Proof. split; [apply vshow_facts|]. vm_compute. auto. Qed.
Lemma nav_case_next : sound (snd vshow) /\ nth_error (kids (snd vshow) "a") 0 = Some "b" /\ view_next_node (snd vshow) "b" (Some "a") = Ok (Some "c").
Proof. split; [apply vshow_facts|]. vm_compute. auto. Qed.
Lemma nav_case_first : sound (snd vshow) /\ pars (snd vshow) "d" = ["b"; "c"] /\ nth_error (kids (snd vshow) "b") 0 = Some "d".
Proof. split; [apply vshow_facts|]. vm_compute. auto. Qed.
Lemma nav_case_raises : is_displayed (snd vshow) "d" = true /\ ~ In "a" (pars (snd vshow) "d") /\ view_next_node (snd vshow) "d" (Some "a") = Err PyException.
Proof. split; [vm_compute; auto|]. split; [|vm_compute; auto]. vm_compute. intuition discriminate. Qed.
Lemma nav_case_print : sound (snd vshow) /\
  view_print (snd vshow) = Ok [(0, "root_v"); (1, "a"); (2, "b"); (3, "d"); (2, "c"); (3, "d")].
Proof. split; [apply vshow_facts|]. vm_compute. auto. Qed.

Lemma root_nth_raises : exists t b s c, viewing keep (t, b, s) /\ nth_error (kids s (froot s)) 0 = Some c /\ view_nth_child s None 0 = Err KeyError.
Proof.
  exists (fst (fst vshow)), (snd (fst vshow)), (snd vshow), "a". split; [exact (viewing_parts _ _ vshow_viewing)|]. split; vm_compute; reflexivity.
Qed.

(** *** Calls that fit *)
Definition nth_is (f : listener -> bool) (y : sys) (i : nat) : bool :=
  match nth_error (s_listeners y) i with Some l => f l | None => false end.
Definition is_view (l : listener) : bool := match l with LView _ => true | _ => false end.
Definition is_count (l : listener) : bool := match l with LCount _ => true | _ => false end.
Definition hiddenb (y : sys) (i : nat) : bool :=
  match nth_error (s_listeners y) 0 with Some (LMain (Some j)) => Nat.eqb i j | _ => false end.
Definition a_viewb (y : sys) (i : nat) : bool := negb (hiddenb y i) && nth_is is_view y i.
Definition unusedb (y : sys) (n : id) : bool := forallb (fun l => negb (mem n (used l))) (s_listeners y).
Definition fitsb (y : sys) (c : lcall) : bool :=
  match c with
  | LTree o => calmb (s_tree y) o &&
      match o with
      | AddNode n _ _ => negb (mem n reserved) && forallb (fun l => match l with LView s => negb (String.eqb n (froot s)) | _ => true end) (s_listeners y)
      | DelNode n true => fewb (s_tree y)
      | _ => true
      end
  | LNewView name => negb (has_node (s_tree y) (root_name name))
  | LMainCount => negb (has_node (s_tree y) (root_name None))
  | LApply i n p _ => a_viewb y i && match p with None => true | Some _ => (match get_filter (s_bank y) n with Some _ => true | None => false end) && unusedb y n end
  | LUnapply i _ | LReset i => a_viewb y i
  | LQueue i n _ => a_viewb y i && negb (String.eqb n "")
  | LState i => Nat.eqb i 0 || a_viewb y i
  | LCountApply i _ | LCountUnapply i _ | LCountRegister i _ => nth_is is_count y i
  | LBank (BAdd n _ _) => negb (bang n) && unusedb y n
  | LBank (BRemove n) | LBank (BParam n _) => unusedb y n
  | LNewCount _ => true
  end.

Lemma unusedb_ok : forall y n, unusedb y n = true -> forall l, In l (s_listeners y) -> ~ In n (used l).
Proof. intros y n H l Hl. unfold unusedb in H. rewrite forallb_forall in H. apply mem_not. auto. Qed.
Lemma a_viewb_ok : forall y i, a_viewb y i = true -> a_view y i.
Proof.
  intros y i H. unfold a_viewb in H. apply andb_true_iff in H. destruct H as [H1 H2]. split.
  - unfold hiddenb in H1. intros H. unfold hidden in H. rewrite H, Nat.eqb_refl in H1. discriminate.
  - unfold nth_is in H2. destruct (nth_error (s_listeners y) i) as [[h|s|v]|]; try discriminate. eauto.
Qed.
Lemma a_countb_ok : forall y i, nth_is is_count y i = true -> a_count y i.
Proof. intros y i H2. unfold nth_is in H2. unfold a_count. destruct (nth_error (s_listeners y) i) as [[h|s|v]|]; try discriminate. eauto. Qed.

Lemma fitsb_ok : forall y c, fitsb y c = true -> (forall n f d, c = LBank (BAdd n f d) -> local f) -> fits y c.
Proof.
  intros y c H HL. destruct c as [o|name|name| |i n p rs|i n|i|i n a|i|i n|i n|i f|[n f d|n|n d]]; cbn [fitsb fits] in *; auto;
    try (apply a_viewb_ok; auto; fail); try (apply a_countb_ok; auto; fail); try (apply unusedb_ok; auto; fail); try (apply negb_true_iff; auto; fail).
  - apply andb_true_iff in H. destruct H as [H1 H2]. split; [apply calmb_ok; auto|]. destruct o; auto.
    + apply andb_true_iff in H2. destruct H2 as [H2 H3]. split; [apply (mem_not n reserved H2)|]. intros s Hs.
      rewrite forallb_forall in H3. specialize (H3 _ Hs). simpl in H3. bools. auto.
    + destruct recursive; auto. apply fewb_ok; auto.
  - apply andb_true_iff in H. destruct H as [H1 H2]. split; [apply a_viewb_ok; auto|]. intros Hp. destruct p; [|congruence].
    apply andb_true_iff in H2. destruct H2 as [H2 H3]. split; [destruct (get_filter (s_bank y) n); congruence|].
    intros j l Hj _. apply (unusedb_ok y n H3). eapply nth_error_In; eauto.
  - apply andb_true_iff in H. destruct H as [H1 H2]. split; [apply a_viewb_ok; auto|]. bools; auto.
  - apply orb_true_iff in H. destruct H as [H|H]; [left; apply Nat.eqb_eq; auto|right; apply a_viewb_ok; auto].
  - apply andb_true_iff in H. destruct H as [H1 H2]. split; [eapply HL; eauto|]. split; [apply negb_true_iff; auto|apply unusedb_ok; auto].
Qed.

Definition lib_calls (l : list lcall) (y : sys) : sys := fold_left (fun y c => fst (lib_call keep c y)) l y.
Fixpoint fitsbs (l : list lcall) (y : sys) : bool :=
  match l with [] => true | c :: rest => fitsb y c && fitsbs rest (fst (lib_call keep c y)) end.
Lemma lib_calls_library : forall l y, library keep y -> fitsbs l y = true -> (forall n f d, In (LBank (BAdd n f d)) l -> local f) -> library keep (lib_calls l y).
Proof.
  induction l as [|c l IH]; intros y H E HL; simpl; auto. simpl in E. apply andb_true_iff in E. destruct E as [E1 E2].
  apply IH; auto; [|intros; eapply HL; right; eauto]. apply library_call; auto. apply fitsb_ok; auto. intros n f d ->. eapply HL. left. reflexivity.
Qed.
Lemma all_nodes_local : local all_nodes.
Proof. intros t t' n d nd nd' _ _ _. reflexivity. Qed.

(** Two views (positions 1 and 4), one count (position 2) and the main view. *)
Definition lsteps : list lcall :=
  [LBank (BAdd "work" above_zero None); LBank (BAdd "few" all_nodes None); LTree (put "a" 1 None); LNewView (Some "v"); LNewCount (Some "c");
   LTree (put "b" 1 (Some "a")); LApply 1 "work" None false; LCountApply 2 "work"; LTree (put "c" 0 (Some "a")); LTree (put "d" 2 (Some "b"));
   LTree (NewRelationship "c" "d"); LMainCount; LNewView None; LApply 4 "few" (Some (mkParams true false 0)) true; LQueue 1 "z" 7;
   LTree (put "z" 3 (Some "d")); LState 0; LCountRegister 2 5; LTree (DelNode "b" false)].
Definition lsys : sys := lib_calls lsteps new_sys.
Lemma lsys_library : library keep lsys.
Proof.
  apply lib_calls_library; [constructor|vm_compute; reflexivity|].
  intros n f d H. unfold lsteps in H. repeat (destruct H as [H|H]; [try discriminate H; inversion H; subst; first [apply above_zero_local|apply all_nodes_local]|]). destruct H.
Qed.
Definition view_at (y : sys) (i : nat) : ft := match nth_error (s_listeners y) i with Some (LView s) => s | _ => new_ft None end.
Definition count_at (y : sys) (i : nat) : vcount := match nth_error (s_listeners y) i with Some (LCount v) => v | _ => new_vc end.
Lemma lsys_case : library keep lsys /\ get_all_nodes (s_tree lsys) = ["a"; "c"; "d"; "z"] /\ view_all_nodes (view_at lsys 1) = ["a"; "d"; "z"] /\
  filters (view_at lsys 1) = ["work"] /\ vc_n_nodes (count_at lsys 2) = 3 /\ view_all_nodes (view_at lsys 4) = [] /\ length (s_listeners lsys) = 5.
Proof. split; [apply lsys_library|]. vm_compute. repeat split. Qed.
Lemma lsys_fits : library keep lsys /\ fits lsys (LTree (SetData "c" 4)) /\ fits lsys (LTree (DelNode "a" true)) /\ fits lsys (LApply 4 "work" None false) /\
  fits lsys (LBank (BRemove "unused")) /\ fits lsys (LState 1).
Proof. split; [apply lsys_library|]. split; [|split; [|split; [|split]]]; (apply fitsb_ok; [vm_compute; reflexivity|discriminate]). Qed.
Lemma lsys_client : library keep lsys /\ fits lsys (LTree (SetData "c" 4)) /\ nth_error (s_listeners lsys) 1 = Some (LView (view_at lsys 1)) /\
  length (sent (view_at lsys 1)) = 43.
Proof. split; [apply lsys_library|]. split; [apply fitsb_ok; [vm_compute; reflexivity|discriminate]|]. vm_compute. auto. Qed.
Lemma lsys_main : library keep lsys /\ has_node (s_tree lsys) (root_name None) = false /\ standing (s_tree lsys) (Some "a") /\
  vt_all_children 0 (Some "a") lsys = Ok ["c"] /\ snd (vt_n_children keep 0 (Some "a") false lsys) = Ok 1 /\
  snd (vt_n_children keep 0 None true lsys) = Ok 4 /\ snd (vt_nodes keep 0 ["work"] lsys) = Ok ["a"; "d"; "z"].
Proof. split; [apply lsys_library|]. vm_compute. repeat split. Qed.
Lemma lsys_nth : library keep lsys /\ standing (s_tree lsys) (Some "c") /\ (forall x c, Some "c" = Some x -> In c (childs (s_tree lsys) x) -> has_node (s_tree lsys) c = true) /\
  vt_nth_child 0 (Some "c") 0 lsys = Ok "d" /\ vt_has_child 0 "c" lsys = Ok true /\ vt_has_parent 0 "c" lsys = Ok true.
Proof.
  split; [apply lsys_library|]. assert (E : childs (s_tree lsys) "c" = ["d"]) by (vm_compute; reflexivity).
  assert (D : has_node (s_tree lsys) "d" = true) by (vm_compute; reflexivity).
  split; [vm_compute; reflexivity|]. split; [intros x c Q; inversion Q; subst; rewrite E; intros [<-|[]]; exact D|]. vm_compute. auto.
Qed.

Lemma lsys_answers : library keep lsys /\ vt_is_displayed 0 "c" lsys = true /\ vt_is_displayed 0 "nowhere" lsys = false /\
  vt_node_for_path 0 ["a"; "c"; "d"] lsys = Ok (Some "d") /\ vt_node_for_path 0 ["c"; "d"] lsys = Ok None /\
  vt_paths 0 "d" lsys = Ok [["a"; "c"; "d"]].
Proof. split; [apply lsys_library|]. vm_compute. auto. Qed.

Lemma lsys_unknown : library keep lsys /\ "nowhere" <> "" /\ "nowhere" <> main_root /\ ~ In "nowhere" (get_all_nodes (s_tree lsys)).
Proof.
  split; [exact lsys_library|]. split; [discriminate|]. split; [vm_compute; discriminate|].
  intros Q. vm_compute in Q. intuition discriminate.
Qed.

(** A node with two parents is deleted; the second parent keeps listing it. *)
Definition gsteps : list lcall :=
  [LTree (put "p" 1 None); LTree (put "q" 1 None); LTree (put "c" 1 (Some "q")); LTree (NewRelationship "p" "c");
   LTree (DelNode "c" false); LTree (put "e" 1 (Some "p"))].
Lemma stale_nth : exists y x c, library keep y /\ standing (s_tree y) (Some x) /\
  vt_nth_child 0 (Some x) 0 y = Ok c /\ has_node (s_tree y) c = false /\ vt_all_children 0 (Some x) y = Ok ["e"].
Proof.
  exists (lib_calls gsteps new_sys), "p", "c". split; [apply lib_calls_library; [constructor|vm_compute; reflexivity|]|vm_compute; auto].
  intros n f d H. unfold gsteps in H. repeat (destruct H as [H|H]; [discriminate H|]). destruct H.
Qed.
Lemma stale_has : exists y x, library keep y /\ has_node (s_tree y) x = true /\
  vt_has_child 0 x y = Ok true /\ vt_all_children 0 (Some x) y = Ok [].
Proof.
  exists (lib_calls (firstn 5 gsteps) new_sys), "p". split; [apply lib_calls_library; [constructor|vm_compute; reflexivity|]|vm_compute; auto].
  intros n f d H. unfold gsteps in H. repeat (destruct H as [H|H]; [discriminate H|]). destruct H.
Qed.

Lemma one_path : forall s, kids s (froot s) = ["p"] -> kids s "p" = [] -> forall q, In q [["p"]] <-> view_path s q.
Proof.
  intros s K0 K1 q. unfold view_path. split.
  - intros [<-|[]]. split; [discriminate|]. simpl. rewrite K0. simpl. auto.
  - intros [Q D]. destruct q as [|a [|b q]]; [destruct (Q eq_refl)| |]; simpl in D; rewrite K0 in D.
    + destruct D as [[<-|[]] _]. left. auto.
    + destruct D as [[<-|[]] D]. rewrite K1 in D. destruct D as [[] _].
Qed.
(** A second client asks for the current state: the first one hears again what it
    already knows. *)
Lemma heard_twice : exists y s s' l cs, library keep y /\ fits y (LState 1) /\ nth_error (s_listeners y) 1 = Some (LView s) /\
  nth_error (s_listeners (fst (lib_call keep (LState 1) y))) 1 = Some (LView s') /\ sent s' = sent s ++ l /\
  NoDup cs /\ (forall q, In q cs <-> view_path s q) /\ forall cs', ~ hear_all cs l cs'.
Proof.
  set (y := lib_calls [LNewView (Some "v"); LTree (put "p" 1 None)] new_sys).
  exists y, (view_at y 1), (view_at (fst (lib_call keep (LState 1) y)) 1), [SAdded "p" ["p"]], [["p"]].
  split; [apply lib_calls_library; [constructor|vm_compute; reflexivity|]|].
  { intros n f d H. repeat (destruct H as [H|H]; [discriminate H|]). destruct H. }
  split; [apply fitsb_ok; [vm_compute; reflexivity|discriminate]|].
  split; [vm_compute; reflexivity|]. split; [vm_compute; reflexivity|]. split; [vm_compute; reflexivity|].
  split; [repeat constructor; simpl; tauto|]. split.
  - apply one_path; vm_compute; reflexivity.
  - intros cs' H. inversion H as [|? l' cs1 x ? H1 H2 Q1 Q2 Q3]; subst. change [SAdded "p" ["p"]] with ([] ++ [SAdded "p" ["p"]]) in Q2.
    apply app_inj_tail in Q2. destruct Q2 as [-> ->]. inversion H1 as [|? l' cs2 x2 ? H3 H4 Q4 Q5]; subst; [|destruct l'; discriminate].
    inversion H2; subst. simpl in *. match goal with Q : _ ++ [_] = ["p"] |- _ => rewrite Q in * end. tauto.
Qed.

(** A view raises: the call stops. *)
Definition rsys : sys := lib_calls [LNewView (Some "v"); LTree (put "p" 1 None)] new_sys.
Lemma raise_case : let o := put "added" 1 (Some "p") in snd (tree_call keep o rsys) = Err TypeError /\ outcome o (s_tree rsys) = Ok tt /\
  In "added" (get_all_nodes (s_tree (fst (tree_call keep o rsys)))) /\ s_listeners (fst (tree_call keep o rsys)) <> s_listeners rsys.
Proof. split; [vm_compute; reflexivity|]. split; [vm_compute; reflexivity|]. split; [vm_compute; auto|]. vm_compute. discriminate. Qed.

(** A view that shows a node below four parents; one of them is deleted with what is
    below it. *)
Definition fsteps : list lcall :=
  [LNewView (Some "v"); LTree (put "a" 1 None); LTree (put "f" 1 None); LTree (put "h" 1 None); LTree (put "q" 1 (Some "a"));
   LTree (put "x" 1 (Some "f")); LTree (NewRelationship "q" "x"); LTree (NewRelationship "h" "x"); LTree (put "g" 1 (Some "q")); LTree (NewRelationship "g" "x")].
Lemma recursive_raises : exists y o, library keep y /\ calm (s_tree y) o /\ outcome o (s_tree y) = Ok tt /\ snd (tree_call keep o y) = Err KeyError.
Proof.
  exists (lib_calls fsteps new_sys), (DelNode "q" true). split; [apply lib_calls_library; [constructor|vm_compute; reflexivity|]|].
  - intros n f d H. unfold fsteps in H. repeat (destruct H as [H|H]; [discriminate H|]). destruct H.
  - split; [apply calmb_ok; vm_compute; reflexivity|]. split; vm_compute; reflexivity.
Qed.

(** Parameters given to one view change the filter of another one, which is not
    refreshed. *)
Lemma shared_stale : exists y c l, library keep y /\ snd (lib_call keep c y) = Ok tt /\ c = LApply 1 "work" (Some (mkParams true false 0)) false /\
  In l (s_listeners (fst (lib_call keep c y))) /\ ~ shows (s_tree (fst (lib_call keep c y))) (s_bank (fst (lib_call keep c y))) l.
Proof.
  set (y := lib_calls [LBank (BAdd "work" all_nodes None); LTree (put "a" 1 None); LNewView (Some "v"); LNewView (Some "w"); LApply 2 "work" None false] new_sys).
  exists y, (LApply 1 "work" (Some (mkParams true false 0)) false), (LView (view_at (fst (lib_call keep (LApply 1 "work" (Some (mkParams true false 0)) false) y)) 2)).
  split.
  - apply lib_calls_library; [constructor|vm_compute; reflexivity|].
    intros n f d H. repeat (destruct H as [H|H]; [try discriminate H; inversion H; subst; apply all_nodes_local|]). destruct H.
  - split; [vm_compute; reflexivity|]. split; [reflexivity|]. split; [vm_compute; auto|]. intros [_ U].
    pose proof (proj2 (proj2 (up_nodes _ _ _ U)) "a") as Q.
    revert Q. match goal with |- (In _ ?a <-> In _ ?b) -> _ => assert (E1 : a = ["a"]) by (vm_compute; reflexivity); assert (E2 : b = []) by (vm_compute; reflexivity); rewrite E1, E2 end.
    intros [Q _]. destruct (Q (or_introl eq_refl)).
Qed.
