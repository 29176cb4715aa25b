(** Concrete views used by the examples and the refutations. *)
From Coq Require Import Permutation.
From Verif Require Import Base BaseFacts MainTree Spec Filters FTree SpecApi SpecView SpecViewing Witness ApiWitness.

Definition supportedb (x : viewed) (c : vcall) : bool :=
  let '(t, b, s) := x in
  match c with
  | VTree o => calmb t o &&
      match o with
      | AddNode n _ _ => negb (String.eqb n (froot s)) && negb (mem n reserved)
      | DelNode n true => fewb t
      | _ => true
      end
  | VApply n (Some _) _ => match get_filter b n with Some _ => true | None => false end
  | VQueue n _ => negb (String.eqb n "")
  | VBank (BAdd _ _ _) => false
  | VBank (BRemove n) => negb (mem n (filters s))
  | VBank (BParam n _) => negb (mem n (filters s))
  | _ => true
  end.

Lemma mem_not : forall x l, negb (mem x l) = true -> ~ In x l.
Proof. intros x l H Hi. apply mem_In in Hi. rewrite Hi in H. discriminate. Qed.

Lemma supportedb_ok : forall x c, supportedb x c = true -> supported x c.
Proof.
  intros [[t b] s] c H. destruct c as [o|n [d|] rs|n| | |n a|[n f d|n|n d]]; simpl in *; auto; try discriminate; try (apply mem_not; auto).
  - apply andb_true_iff in H. destruct H as [H1 H2]. split; [apply calmb_ok; auto|]. destruct o; auto.
    + apply andb_true_iff in H2. destruct H2 as [H2 H3]. bools. split; auto. apply (mem_not n reserved H3).
    + destruct recursive; auto. apply fewb_ok; auto.
  - destruct (get_filter b n); [discriminate|discriminate].
  - bools; auto.
Qed.

Fixpoint supportedsb (l : list vcall) (x : viewed) : bool :=
  match l with [] => true | c :: rest => supportedb x c && supportedsb rest (fst (view_call keep c x)) end.
Lemma supportedsb_ok : forall l x, supportedsb l x = true -> all_supported keep l x.
Proof.
  induction l as [|c l IH]; simpl; intros x H; auto. apply andb_true_iff in H. destruct H. split; auto. apply supportedb_ok; auto.
Qed.
Lemma viewing_calls : forall ord l x, viewing ord x -> all_supported ord l x -> viewing ord (view_calls ord l x).
Proof. intros ord. induction l as [|c l IH]; simpl; intros x V H; auto. destruct H. apply IH; auto. apply viewing_call; auto. Qed.
Lemma keep_perm : forall k l, Permutation (keep k l) l.
Proof. intros. apply Permutation_refl. Qed.

(** a above b and c, both above d; all but c pass the filter "work". *)
Definition put (n : id) (v : nat) (p : option id) : mop := AddNode n (new_node v) p.
Definition vtree_ops : list mop := [put "a" 1 None; put "b" 1 (Some "a"); put "c" 0 (Some "a"); put "d" 2 (Some "b"); NewRelationship "c" "d"].
Definition vtree : mtree := hist vtree_ops.
Lemma vtree_calm : reach calm vtree.
Proof. apply run_calm. reflexivity. Qed.
Definition vbank : bank := bank_calls [BAdd "work" above_zero None; BAdd "flat" all_nodes (Some (mkParams false true 0))].
Lemma vbank_local : local_bank vbank.
Proof.
  intros n f. unfold vbank, bank_calls, get_filter. simpl. destruct (String.eqb n "work").
  - intros H. inv H. apply above_zero_local.
  - destruct (String.eqb n "flat"); [|discriminate]. intros H. inv H. intros t t' m d nd nd' _ _ _. reflexivity.
Qed.
Lemma vwelcome : welcome vtree vbank (Some "v").
Proof.
  split; [apply vtree_calm|]. split; [reflexivity|]. split.
  - intros x Hx. simpl in Hx. repeat destruct Hx as [<-|Hx]; try reflexivity. destruct Hx.
  - split; [apply vbank_local|]. split; [reflexivity|]. vm_compute. repeat constructor; simpl; intuition discriminate.
Qed.
Definition vstart : viewed := opened keep vtree vbank (Some "v") ["work"].

(** A view without c; c passes; an action waits for z, which comes below d; b is
    deleted. *)
Definition vsteps : list vcall :=
  [VTree (SetData "c" 5); VQueue "z" 7; VTree (put "z" 3 (Some "d")); VTree (DelNode "b" false); VBank (BParam "flat" (Some (mkParams false true 1)))].
Definition vend : viewed := view_calls keep vsteps vstart.
Lemma vstart_viewing : viewing keep vstart.
Proof. constructor. apply vwelcome. Qed.
Lemma vsteps_supported : all_supported keep vsteps vstart.
Proof. apply supportedsb_ok. vm_compute. reflexivity. Qed.
Lemma vend_viewing : viewing keep vend.
Proof. apply viewing_calls; [apply vstart_viewing|apply vsteps_supported]. Qed.

Lemma viewing_parts : forall ord x, viewing ord x -> viewing ord (fst (fst x), snd (fst x), snd x).
Proof. intros ord [[t b] s] H. exact H. Qed.

Lemma vstart_shape : view_all_nodes (snd vstart) = ["a"; "b"; "d"] /\ kids (snd vstart) "a" = ["b"] /\ pars (snd vstart) "d" = ["b"].
Proof. vm_compute. auto. Qed.
Lemma vend_shape : view_all_nodes (snd vend) = ["a"; "d"; "c"; "z"] /\ pars (snd vend) "d" = ["c"] /\ pars (snd vend) "z" = ["d"] /\
  sent (snd vend) = sent (snd vstart) ++ skipn (length (sent (snd vstart))) (sent (snd vend)).
Proof. vm_compute. auto. Qed.
Definition heard : list sig := skipn (length (sent (snd vstart))) (sent (snd vend)).
Lemma heard_parts : In (SAdded "d" ["a"; "c"; "d"]) heard /\ In (SRun "z" 7) heard /\ In (SDeleted "z" ["a"; "b"; "d"; "z"]) heard /\ length heard = 25.
Proof. vm_compute. intuition. Qed.
Lemma heard_sent : sent (snd vend) = sent (snd vstart) ++ heard.
Proof. vm_compute. reflexivity. Qed.

Lemma onward_calls : forall ord l x y, onward ord x y -> all_supported ord l y -> onward ord x (view_calls ord l y).
Proof. intros ord. induction l as [|c l IH]; simpl; intros x y V H; auto. destruct H. apply IH; auto. apply onward_call; auto. Qed.
Lemma vstart_vend : viewing keep vstart /\ onward keep vstart vend.
Proof. split; [apply vstart_viewing|]. apply onward_calls; [constructor|apply vsteps_supported]. Qed.

(** The same view made flat. *)
Definition vflat : viewed := view_calls keep (vsteps ++ [VApply "flat" (Some (mkParams false true 2)) false]) vstart.
Lemma vflat_viewing : viewing keep vflat.
Proof. apply viewing_calls; [apply vstart_viewing|]. apply supportedsb_ok. vm_compute. reflexivity. Qed.
Lemma vflat_example : viewing keep vflat /\ flattened (snd (fst vflat)) (filters (snd vflat)) /\
  kids (snd vflat) (froot (snd vflat)) = ["a"; "c"; "d"; "z"].
Proof.
  split; [apply vflat_viewing|]. split; [|vm_compute; reflexivity].
  exists "flat", (mkFilt all_nodes (Some (mkParams false true 2))), (mkParams false true 2). split; [vm_compute; auto|]. split; [vm_compute; reflexivity|]. split; reflexivity.
Qed.

(** Another order of the sets. *)
Definition backwards : nat -> list id -> list id := fun _ l => rev l.
Lemma backwards_perm : forall k l, Permutation (backwards k l) l.
Proof. intros. apply Permutation_sym, Permutation_rev. Qed.
Lemma orders_example : (forall k l, Permutation (keep k l) l) /\ (forall k l, Permutation (backwards k l) l) /\
  welcome vtree vbank (Some "v") /\ all_supported keep vsteps (opened keep vtree vbank (Some "v") ["work"]).
Proof. split; [exact keep_perm|]. split; [exact backwards_perm|]. split; [apply vwelcome|apply vsteps_supported]. Qed.

(** A disabled children flag hides a node from the rebuilding. *)
Lemma unvisited : exists t b s s', reachx fresh_plain t /\ no_clash t s /\ s = new_ft None /\
  refilter keep b t s = (s', Ok tt) /\ In "c" (satisfying b t (filters s')) /\ ~ In "c" (view_all_nodes s').
Proof.
  exists (hist [add "p" None; NewRelationship "p" "c"; SetChildrenEnabled "p" false; add "c" None]), empty_bank, (new_ft None).
  eexists. split; [apply run_plain; reflexivity|]. split; [split; [reflexivity|]|].
  - intros x Hx. simpl in Hx. repeat destruct Hx as [<-|Hx]; try reflexivity. destruct Hx.
  - split; [reflexivity|]. split; [vm_compute; reflexivity|]. vm_compute. intuition discriminate.
Qed.

(** A filter that looks at the ancestors (five levels). *)
Fixpoint calm_above (k : nat) (t : mtree) (n : id) : bool :=
  match dget n (nodes t) with
  | Some nd => Nat.ltb (data nd) 9 && match k with 0 => true | S k' => forallb (calm_above k' t) (get_parents t n) end
  | None => false
  end.
Definition quiet_tasks : ffun := fun t n _ => calm_above 5 t n.
Definition qbank : bank := bank_calls [BAdd "quiet" quiet_tasks None].
Lemma ancestors_raise : exists t b names n v, reach calm t /\ has_node t (root_name None) = false /\
  (forall x, In x reserved -> has_node t x = false) /\
  snd (refilter keep b t (set_filters names (new_ft None))) = Ok tt /\
  snd (view_call keep (VTree (SetData n v)) (opened keep t b None names)) = Err KeyError.
Proof.
  exists vtree, qbank, ["quiet"], "a", 9. split; [apply vtree_calm|]. split; [reflexivity|]. split; [|split; vm_compute; reflexivity].
  intros x Hx. simpl in Hx. repeat destruct Hx as [<-|Hx]; try reflexivity. destruct Hx.
Qed.

(** r above p and n, p above n; of these only n passes. *)
Definition rtree : mtree := hist [put "r" 0 None; put "p" 0 (Some "r"); put "n" 1 (Some "r"); NewRelationship "p" "n"].
Lemma rwelcome : welcome rtree vbank None.
Proof.
  split; [apply run_calm; reflexivity|]. split; [reflexivity|]. split.
  - intros x Hx. simpl in Hx. repeat destruct Hx as [<-|Hx]; try reflexivity. destruct Hx.
  - split; [apply vbank_local|]. split; [reflexivity|]. vm_compute. repeat constructor; simpl; intuition discriminate.
Qed.
Lemma postponed_raises : exists t b s name o, viewing keep (t, b, s) /\ calm t o /\
  (let s1 := snd (fst (apply_filter keep t name None false false b s)) in snd (feed keep b (events o t) s1) = Err ValueError).
Proof.
  exists rtree, vbank, (snd (opened keep rtree vbank None [])), "work", (ModifyNode "n"). split; [apply viewing_start; apply rwelcome|].
  split; [apply calmb_ok; vm_compute; reflexivity|]. vm_compute. reflexivity.
Qed.

(** Paths that [is_path_valid] accepts without reason. *)
Lemma lax_validity : exists ord t b s, (forall k l, Permutation (ord k l) l) /\ viewing ord (t, b, s) /\
  is_path_valid s [] = true /\ is_path_valid s ["d"; "z"] = true.
Proof. exists keep, (fst (fst vend)), (snd (fst vend)), (snd vend). split; [exact keep_perm|]. split; [apply viewing_parts, vend_viewing|]. split; vm_compute; reflexivity. Qed.

(** Parameters given through one view change the other. *)
Lemma shared_parameters : exists t b s1 s2 name d, viewing keep (t, b, s1) /\ viewing keep (t, b, s2) /\ get_filter b name <> None /\
  (let b' := fst (fst (apply_filter keep t name (Some d) false true b s1)) in
   satisfying b t (filters s2) = ["a"; "b"; "d"] /\ satisfying b' t (filters s2) = ["c"]).
Proof.
  exists vtree, vbank, (snd (opened keep vtree vbank (Some "v") [])), (snd vstart), "work", (mkParams true false 0).
  split; [apply viewing_start, vwelcome|]. split; [apply vstart_viewing|]. split; [discriminate|]. split; vm_compute; reflexivity.
Qed.

(** Ids that views do not support. *)
Lemma event_name_raises : exists t b s n, viewing keep (t, b, s) /\ n <> "" /\ has_node t n = false /\
  calm t (AddNode n (new_node 1) None) /\ snd (view_call keep (VTree (AddNode n (new_node 1) None)) (t, b, s)) = Err TypeError.
Proof.
  exists (fst (fst vend)), (snd (fst vend)), (snd vend), "modified". split; [apply viewing_parts, vend_viewing|]. split; [discriminate|].
  split; [vm_compute; reflexivity|]. split; [apply calmb_ok; vm_compute; reflexivity|vm_compute; reflexivity].
Qed.
Lemma root_name_hidden : exists t b s n, viewing keep (t, b, s) /\ n <> "" /\ has_node t n = false /\
  let o := AddNode n (new_node 1) None in
  calm t o /\ exists s', feed keep b (events o t) s = (s', Ok tt) /\ In n (satisfying b (after o t) (filters s')) /\ ~ In n (view_all_nodes s').
Proof.
  exists (fst (fst vend)), (snd (fst vend)), (snd vend), "root_v". split; [apply viewing_parts, vend_viewing|]. split; [discriminate|].
  split; [vm_compute; reflexivity|]. split; [apply calmb_ok; vm_compute; reflexivity|]. eexists. split; [vm_compute; reflexivity|]. vm_compute. intuition discriminate.
Qed.
