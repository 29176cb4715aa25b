(** Cases for the property theorems about node objects and about callbacks that call the
    tree: hypotheses that hold, and programs that go wrong. *)
From Verif Require Import Base BaseFacts MainTree Spec Witness Objects SpecObjects.

Definition look : listener := fun _ _ _ _ => Return.

(** Make an object for each id and add all of them to the root. *)
Definition made (l : list id) : list call := map CNew l ++ map (fun a => CAdd a None) (seq 1 (length l)).

Definition start : world * list entry := (new_world, []).

(** Checks of histories by computation. *)
Fixpoint legal (ok : world -> call -> bool) (fuel : nat) (react : listener) (cs : list call) (s : world * list entry) : bool :=
  match cs with
  | [] => true
  | c :: rest => ok (fst s) c && match exec fuel react c s with (s1, r) => legal ok fuel react rest (fst s1, snd s1 ++ [Made c r]) end
  end.
Definition ok_first (w : world) (c : call) : bool :=
  match c with
  | CAdd a _ => match nth_error (heap w) a with Some o => negb (o_tree o) || named w (o_id o) | None => true end
  | _ => true
  end.
Definition ok_own (w : world) (c : call) : bool :=
  match c with
  | CNew n => negb (mem n (map o_id (heap w)))
  | CAdd a _ => negb (Nat.eqb a 0)
  | _ => true
  end.
Definition ok_one (w : world) (c : call) : bool :=
  ok_own w c && match c with CRemove _ r => negb r | _ => true end.

Lemma ok_first_ok : forall w c, ok_first w c = true -> first_add w c.
Proof.
  intros w [] H; simpl in *; auto. intros o E. rewrite E in H. apply Bool.orb_true_iff in H. destruct H as [H|H]; [left|right; exact H].
  destruct (o_tree o); [discriminate|reflexivity].
Qed.
Lemma ok_own_ok : forall w c, ok_own w c = true -> own_ids w c.
Proof.
  intros w [] H; simpl in *; auto.
  - intros o I E. apply Bool.negb_true_iff in H. apply Bool.not_true_iff_false in H. apply H. apply mem_In. subst n. apply in_map; exact I.
  - intros ->. discriminate.
Qed.
Lemma ok_one_ok : forall w c, ok_one w c = true -> one_object w c.
Proof.
  intros w c H. apply Bool.andb_true_iff in H. destruct H as [H1 H2]. apply ok_own_ok in H1. destruct c; simpl in *; auto. destruct recursive; [discriminate|reflexivity].
Qed.

Lemma play_played : forall (P : world -> call -> Prop) ok fuel react cs s, (forall w c, ok w c = true -> P w c) ->
  played P react s -> legal ok fuel react cs s = true -> played P react (play fuel react cs s).
Proof.
  intros P ok fuel react cs. induction cs as [|c cs IH]; intros s OK H L; simpl in *; [exact H|].
  apply Bool.andb_true_iff in L. destruct L as [L1 L2]. destruct (exec fuel react c s) as [s1 r] eqn:E. apply IH; auto.
  eapply played_call; eauto.
Qed.

Lemma returned : forall l, forallb (fun e => match e with Made _ (Ok _) => true | Heard _ _ => true | _ => false end) l = true -> all_returned l.
Proof.
  intros l H c r I. rewrite forallb_forall in H. specialize (H _ I). simpl in H. destruct r as [[]| |]; auto; discriminate.
Qed.

Definition par_of (w : world) (x : id) : option (list id) :=
  match dget x (names w) with Some a => option_map o_par (nth_error (heap w) a) | None => None end.
Lemma par_of_stored : forall w x l, par_of w x = Some l -> exists o, stored w x o /\ o_par o = l.
Proof.
  intros w x l H. unfold par_of in H. destruct (dget x (names w)) as [a|] eqn:A; [|discriminate]. destruct (nth_error (heap w) a) as [o|] eqn:N; [|discriminate].
  inv H. exists o. split; auto. exists a. auto.
Qed.
Lemma up_one : forall w x p l, par_of w x = Some l -> In p l -> above w p x.
Proof. intros w x p l H I. destruct (par_of_stored w x l H) as (o & S & E). subst l. eapply above_one; eauto. Qed.
Lemma up_more : forall w x q p l, par_of w x = Some l -> In q l -> above w p q -> above w p x.
Proof. intros w x q p l H I A. destruct (par_of_stored w x l H) as (o & S & E). subst l. eapply above_more; eauto. Qed.
Lemma walk_one : forall w c x p f, par_of w x = Some [p] -> String.eqb x c = false -> walk (S f) w c [x] = walk f w c [p].
Proof.
  intros w c x p f H N. unfold par_of in H. cbn [walk]. rewrite N. destruct (dget x (names w)) as [a|]; [|discriminate].
  destruct (nth_error (heap w) a) as [o|]; [|discriminate]. inv H. rewrite H1. reflexivity.
Qed.

Ltac in_log k := first [apply nth_error_In with (n := k); vm_compute; reflexivity | in_log (S k)].

(** ** Callbacks that call the tree *)

(** A callback that files each new node, makes a node anew when it was deleted, and puts
    it below its parent again. *)
Definition keeper : listener := fun ev n l w =>
  match ev with
  | EAdded =>
      match dget n (names w) with
      | Some a => match nth_error (heap w) a with
                  | Some o => if String.eqb n "box" then Return else match o_par o with [] => Do (CRelate "box" n) | _ => Return end
                  | None => Return
                  end
      | None => Return
      end
  | EDeleted =>
      if String.eqb n "box" then Return
      else match nth_error (heap w) (length (heap w) - 1) with
           | Some o => if o_tree o then (if named w n then Return else Do (CNew n)) else Do (CAdd (length (heap w) - 1) (Some "box"))
           | None => Return
           end
  | EModified => if String.eqb n "a" then (if named w "c" then Do (CRemove "c" true) else Return) else Return
  end.

Lemma keeper_obeys : obeys first_add keeper.
Proof.
  intros ev n l w c H. unfold keeper in H. destruct ev.
  - destruct (dget n (names w)); [|discriminate]. destruct (nth_error _ _); [|discriminate]. destruct (String.eqb n "box"); [discriminate|].
    destruct (o_par o); [|discriminate]. inv H. exact I.
  - destruct (String.eqb n "a"); [|discriminate]. destruct (named w "c"); [|discriminate]. inv H. exact I.
  - destruct (String.eqb n "box"); [discriminate|]. destruct (nth_error (heap w) (length (heap w) - 1)) as [o|] eqn:E; [|discriminate].
    destruct (o_tree o) eqn:T; [destruct (named w n); [discriminate|]; inv H; exact I|]. inv H. simpl. intros o' E'. rewrite E in E'. inv E'. left; exact T.
Qed.

Definition kept : world * list entry :=
  play 40 keeper (made ["box"; "a"; "b"] ++ [CRelate "a" "b"; CRemove "b" false; CNew "d"; CAdd 5 (Some "b"); CRelate "d" "box"]) start.

Lemma kept_played : played first_add keeper kept.
Proof. apply (play_played first_add ok_first 40 keeper _ start ok_first_ok); [constructor|vm_compute; reflexivity]. Qed.
Lemma case_keeper :
  obeys first_add keeper /\ played first_add keeper kept /\ In (Made (CAdd 4 (Some "box")) (Ok tt)) (snd kept) /\
  In (Made (CRelate "d" "box") (Err Circular)) (snd kept) /\ above (fst kept) "box" "d".
Proof.
  split; [exact keeper_obeys|]. split; [exact kept_played|].
  split; [in_log 0|]. split; [in_log 0|].
  eapply up_more; [vm_compute; reflexivity|left; reflexivity|]. eapply up_one; [vm_compute; reflexivity|left; reflexivity].
Qed.

Lemma case_keeper_walk :
  obeys first_add keeper /\ played first_add keeper kept /\ walk 40 (fst kept) "box" ["d"] = Ok true /\ walk 40 (fst kept) "a" ["d"] = Ok false.
Proof. split; [exact keeper_obeys|]. split; [exact kept_played|]. split; vm_compute; reflexivity. Qed.

(** ** Objects that are added again *)

(** Nodes are removed and their objects added again, with relations in between. *)
Definition returning : list call :=
  made ["a"; "b"; "c"] ++ [CRelate "a" "b"; CRelate "b" "c"; CRemove "b" false; CRelate "c" "a"; CAdd 2 (Some "a"); CRelate "b" "c"].
Definition returned_world : world * list entry := play 40 look returning start.
Lemma case_again :
  silent look /\ played one_object look returned_world /\ above (fst returned_world) "c" "b" /\
  In (Made (CAdd 2 (Some "a")) (Ok tt)) (snd returned_world) /\ In (Made (CRelate "b" "c") (Err Circular)) (snd returned_world).
Proof.
  split; [intros ev n l w; reflexivity|]. split; [apply (play_played one_object ok_one 40 look _ start ok_one_ok); [constructor|vm_compute; reflexivity]|].
  split; [eapply up_more; [vm_compute; reflexivity|left; reflexivity|]; eapply up_one; [vm_compute; reflexivity|left; reflexivity]|].
  split; [in_log 0|in_log 0].
Qed.

Lemma case_again_walk :
  silent look /\ played one_object look returned_world /\ walk 40 (fst returned_world) "c" ["b"] = Ok true /\ walk 40 (fst returned_world) "b" ["c"] = Ok false.
Proof. destruct case_again as (A & B & _). split; [exact A|]. split; [exact B|]. split; vm_compute; reflexivity. Qed.

(** A removed object that has a parent still. *)
Definition gone_world : world * list entry := play 40 look (made ["z"; "x"; "y"] ++ [CRelate "z" "y"; CRelate "x" "y"; CRemove "y" false]) start.
Lemma case_gone : silent look /\ played one_object look gone_world /\ dget "y" (names (fst gone_world)) = None /\
  option_map o_par (nth_error (heap (fst gone_world)) 3) = Some ["x"].
Proof.
  split; [intros ev n l w; reflexivity|]. split; [apply (play_played one_object ok_one 40 look _ start ok_one_ok); [constructor|vm_compute; reflexivity]|].
  split; vm_compute; reflexivity.
Qed.

(** A circle, although no call failed. *)
Definition circling : list call :=
  made ["z"; "x"; "y"; "q0"; "q"] ++
  [CRelate "z" "y"; CRelate "x" "y"; CRemove "y" false; CRelate "q0" "x"; CRelate "q" "x"; CRemove "x" true;
   CAdd 3 None; CRelate "y" "q"; CAdd 2 None].
Definition circle : world * list entry := play 40 look circling start.

Lemma circle_walk : forall fuel, walk fuel (fst circle) "z" ["x"] = Diverge.
Proof.
  assert (X : par_of (fst circle) "x" = Some ["q"]) by (vm_compute; reflexivity).
  assert (Q : par_of (fst circle) "q" = Some ["y"]) by (vm_compute; reflexivity).
  assert (Y : par_of (fst circle) "y" = Some ["x"]) by (vm_compute; reflexivity).
  assert (B : forall n fuel, fuel <= n -> walk fuel (fst circle) "z" ["x"] = Diverge).
  { induction n as [|n IH]; intros f L.
    - assert (f = 0) by lia. subst f. reflexivity.
    - destruct f as [|[|[|f]]]; [reflexivity| | |]; rewrite (walk_one _ "z" _ _ _ X eq_refl); [reflexivity| |];
        rewrite (walk_one _ "z" _ _ _ Q eq_refl); [reflexivity|]. rewrite (walk_one _ "z" _ _ _ Y eq_refl). apply IH. lia. }
  intros fuel. apply (B fuel). lia.
Qed.
Lemma walk_wpend : forall r w c fuel l, walk fuel (set_wpend r w) c l = walk fuel w c l.
Proof.
  intros r w c fuel. induction fuel as [|f IH]; intros [|x l]; simpl; auto. destruct (String.eqb x c); auto. destruct (dget x (names w)); auto.
  destruct (nth_error (heap w) n); auto.
Qed.
Lemma relate_hangs : forall react self fuel p c s, negb (truthy p) || negb (truthy c) || String.eqb p c = false ->
  negb (named (fst s) p) || negb (named (fst s) c) = false -> walk fuel (fst s) c [p] = Diverge -> snd (relate react self fuel p c s) = Diverge.
Proof.
  intros react self fuel p c [w l] T N W. unfold relate, obind, omod, oget. cbn [fst snd] in *. rewrite T. cbn [fst snd].
  change (named (set_wpend (rel_remove1 (Some p, c) (wpend w)) w)) with (named w). rewrite N. unfold circular. cbn [fst]. rewrite walk_wpend, W. reflexivity.
Qed.
Lemma circle_hangs : forall fuel, snd (exec fuel look (CRelate "x" "z") circle) = Diverge.
Proof.
  intros [|f]; [reflexivity|]. apply relate_hangs; [reflexivity|vm_compute; reflexivity|apply circle_walk].
Qed.
Lemma circle_case : silent look /\ played own_ids look circle /\ all_returned (snd circle) /\ above (fst circle) "x" "x" /\
  forall fuel, snd (exec fuel look (CRelate "x" "z") circle) = Diverge.
Proof.
  split; [intros ev n l w; reflexivity|]. split; [apply (play_played own_ids ok_own 40 look _ start ok_own_ok); [constructor|vm_compute; reflexivity]|].
  split; [apply returned; vm_compute; reflexivity|]. split; [|exact circle_hangs].
  eapply up_more; [vm_compute; reflexivity|left; reflexivity|]. eapply up_more; [vm_compute; reflexivity|left; reflexivity|].
  eapply up_one; [vm_compute; reflexivity|left; reflexivity].
Qed.

(** ** Callbacks that disturb a deletion *)

(** While the node "x" is deleted, its child is put below it again. *)
Definition restorer : listener := fun ev n l w =>
  match ev with
  | EModified => if String.eqb n "c" && named w "x" && match par_of w "c" with Some [] => true | _ => false end then Do (CRelate "x" "c") else Return
  | _ => Return
  end.
Lemma restorer_obeys : obeys first_add restorer.
Proof.
  intros ev n l w c H. unfold restorer in H. destruct ev; try discriminate. destruct (_ && _); [|discriminate]. inv H. exact I.
Qed.
Definition losing : list call := made ["x"; "c"] ++ [CRelate "x" "c"; CRemove "x" false].
Definition loss : world * list entry := play 40 restorer losing start.

Definition lostb (w : world) (x : id) : bool :=
  match par_of w x with
  | Some l => negb (mem x (top w)) && forallb (fun p => match dget p (names w) with None => true | _ => false end) l &&
              forallb (fun a => match nth_error (heap w) a with Some q => negb (mem x (o_chi q)) | None => true end) (map snd (names w))
  | None => false
  end.
Lemma dget_in : forall (d : dict nat) k v, dget k d = Some v -> In v (map snd d).
Proof.
  induction d as [|[k' v'] d IH]; intros k v H; simpl in *; [discriminate|]. destruct (String.eqb k k'); [inv H; left; reflexivity|right; eapply IH; eauto].
Qed.
Lemma lostb_lost : forall w x, lostb w x = true -> lost w x.
Proof.
  intros w x H. unfold lostb in H. destruct (par_of w x) as [l|] eqn:P; [|discriminate]. apply Bool.andb_true_iff in H. destruct H as [H H3].
  apply Bool.andb_true_iff in H. destruct H as [H1 H2]. destruct (par_of_stored _ _ _ P) as (o & S & E). subst l. exists o. split; auto.
  split; [apply Bool.negb_true_iff in H1; apply mem_false; exact H1|]. rewrite forallb_forall in H2, H3. split.
  - intros p I. specialize (H2 p I). destruct (dget p (names w)); [discriminate|reflexivity].
  - intros p q (a & A1 & A2) I. specialize (H3 a (dget_in _ _ _ A1)). rewrite A2 in H3. apply Bool.negb_true_iff in H3. apply mem_false in H3. auto.
Qed.
Lemma loss_case : obeys first_add restorer /\ played first_add restorer loss /\ all_returned (snd loss) /\ lost (fst loss) "c".
Proof.
  split; [exact restorer_obeys|]. split; [apply (play_played first_add ok_first 40 restorer _ start ok_first_ok); [constructor|vm_compute; reflexivity]|].
  split; [apply returned; vm_compute; reflexivity|]. apply lostb_lost. vm_compute. reflexivity.
Qed.

(** While "x" is deleted, its child is put below "y" and taken from there. *)
Definition shuttle : listener := fun ev n l w =>
  match ev with
  | EModified =>
      if String.eqb n "c" && named w "x" && named w "y" then
        match par_of w "c", mem "c" (top w) with
        | Some [], false => Do (CRelate "y" "c")
        | Some ["y"], false => Do (CBreak "y" "c")
        | _, _ => Return
        end
      else Return
  | _ => Return
  end.
Lemma shuttle_obeys : obeys first_add shuttle.
Proof.
  intros ev n l w c H. assert (Y : (exists p q, c = CRelate p q) \/ (exists p q, c = CBreak p q)).
  { unfold shuttle in H. destruct ev; try discriminate. destruct (_ && _); [|discriminate].
    destruct (par_of w "c") as [[|p [|q r]]|]; destruct (mem "c" (top w)); try discriminate;
      repeat match type of H with context [match ?x with _ => _ end] => destruct x; try discriminate end; inv H; eauto. }
  destruct Y as [(p & q & ->)|(p & q & ->)]; exact I.
Qed.
Definition doubling : list call := made ["x"; "y"; "c"] ++ [CRelate "x" "c"; CRemove "x" false].
Definition doubled : world * list entry := play 40 shuttle doubling start.
Lemma doubled_case : obeys first_add shuttle /\ played first_add shuttle doubled /\ all_returned (snd doubled) /\ ~ NoDup (top (fst doubled)).
Proof.
  split; [exact shuttle_obeys|]. split; [apply (play_played first_add ok_first 40 shuttle _ start ok_first_ok); [constructor|vm_compute; reflexivity]|].
  split; [apply returned; vm_compute; reflexivity|]. assert (E : top (fst doubled) = ["y"; "c"; "c"]) by (vm_compute; reflexivity). rewrite E.
  intros N. inv N. inv H2. apply H3. left; reflexivity.
Qed.

(** While "x" is deleted, its child is deleted as well. *)
Definition cleaner : listener := fun ev n l w =>
  match ev with
  | EModified => if String.eqb n "c" && match par_of w "c" with Some [] => true | _ => false end then Do (CRemove "c" false) else Return
  | _ => Return
  end.
Lemma cleaner_obeys : obeys first_add cleaner.
Proof. intros ev n l w c H. unfold cleaner in H. destruct ev; try discriminate. destruct (_ && _); [|discriminate]. inv H. exact I. Qed.
Definition cleaned : world * list entry := play 40 cleaner losing start.
Lemma cleaned_case : obeys first_add cleaner /\ played first_add cleaner cleaned /\
  In (Made (CRemove "x" false) (Err KeyError)) (snd cleaned) /\ exists o, stored (fst cleaned) "x" o.
Proof.
  split; [exact cleaner_obeys|]. split; [apply (play_played first_add ok_first 40 cleaner _ start ok_first_ok); [constructor|vm_compute; reflexivity]|].
  split; [in_log 0|]. destruct (par_of_stored (fst cleaned) "x" []) as (o & S & _); [vm_compute; reflexivity|]. exists o. exact S.
Qed.

(** ** Callbacks that act at the end of a call *)

(** A callback that files each new node below "box", and deletes "b" when "a" was. *)
Definition closer : listener := fun ev n l w =>
  match ev with
  | EAdded => if String.eqb n "box" then Return else match par_of w n with Some [] => Do (CRelate "box" n) | _ => Return end
  | EDeleted => if named w "b" then Do (CRemove "b" false) else Return
  | EModified => Return
  end.
Definition one_at_a_time (w : world) (c : call) : Prop := first_add w c /\ match c with CRemove _ recursive => recursive = false | _ => True end.
Definition ok_one_at_a_time (w : world) (c : call) : bool := ok_first w c && match c with CRemove _ r => negb r | _ => true end.
Lemma ok_one_at_a_time_ok : forall w c, ok_one_at_a_time w c = true -> one_at_a_time w c.
Proof.
  intros w c H. apply Bool.andb_true_iff in H. destruct H as [H1 H2]. split; [apply ok_first_ok; exact H1|]. destruct c; auto. destruct recursive; [discriminate|reflexivity].
Qed.
Lemma closer_obeys : obeys one_at_a_time closer.
Proof.
  intros ev n l w c H. apply ok_one_at_a_time_ok. unfold closer in H. destruct ev; try discriminate.
  - destruct (String.eqb n "box"); [discriminate|]. destruct (par_of w n) as [[|? ?]|]; inv H. reflexivity.
  - destruct (named w "b"); inv H. reflexivity.
Qed.
Lemma closer_ends : acts_at_ends one_at_a_time closer.
Proof. split; [intros n l w; reflexivity|]. right. intros w n [_ H]. discriminate. Qed.
Definition closed : world * list entry := play 40 closer (made ["box"; "a"; "b"; "c"] ++ [CRemove "a" false]) start.
Lemma case_closer : obeys one_at_a_time closer /\ acts_at_ends one_at_a_time closer /\ played one_at_a_time closer closed /\
  In (Made (CRelate "box" "c") (Ok tt)) (snd closed) /\ In (Made (CRemove "b" false) (Ok tt)) (snd closed).
Proof.
  split; [exact closer_obeys|]. split; [exact closer_ends|]. split; [apply (play_played one_at_a_time ok_one_at_a_time 40 closer _ start ok_one_at_a_time_ok); [constructor|vm_compute; reflexivity]|].
  split; [in_log 0|in_log 0].
Qed.

(** ** Calls of ordinary applications *)

(** A callback that files each new node below "box". *)
Definition filer : listener := fun ev n l w =>
  match ev with
  | EAdded => if String.eqb n "box" then Return else match par_of w n with Some [] => Do (CRelate "box" n) | _ => Return end
  | _ => Return
  end.
Lemma filer_obeys : obeys (proper_and calm) filer.
Proof.
  intros ev n l w c H. unfold filer in H. destruct ev; try discriminate. destruct (String.eqb n "box"); [discriminate|]. destruct (par_of w n) as [[|? ?]|]; inv H.
  split; [exact I|]. intros o E. inv E. split; [exact I|]. split; [exact I|]. split; exact I.
Qed.
Lemma filer_ends : acts_at_ends (proper_and calm) filer.
Proof. split; [intros n l w; reflexivity|]. left. intros n l w. reflexivity. Qed.

Definition ok_calm (w : world) (c : call) : bool :=
  match c with
  | CNew n => true
  | CAdd a _ => ok_first w c && match nth_error (heap w) a with Some o => negb (String.eqb (o_id o) "") | None => false end &&
      match op_of w c with Some o => calmb (tree_of w) o | None => true end
  | CRemove _ _ | CRelate _ _ | CBreak _ _ | CModify _ => match op_of w c with Some o => calmb (tree_of w) o | None => true end
  | _ => false
  end.
Lemma ok_calm_ok : forall w c, ok_calm w c = true -> proper_and calm w c.
Proof.
  intros w c H. destruct c; simpl in H; try discriminate; try (split; [exact I|]; intros o E; inv E; apply calmb_ok; exact H).
  apply Bool.andb_true_iff in H. destruct H as [H H3]. apply Bool.andb_true_iff in H. destruct H as [H1 H2].
  destruct (nth_error (heap w) a) as [o|] eqn:E; [|discriminate]. split.
  - simpl. intros o' E'. rewrite E in E'. inv E'. apply Bool.negb_true_iff in H2. apply eqb_neq in H2. split; auto.
    apply Bool.orb_true_iff in H1. destruct H1 as [H1|H1]; [left; apply Bool.negb_true_iff in H1; exact H1|right; exact H1].
  - intros q Q. simpl in Q. rewrite E in Q. destruct (named w (o_id o)); [discriminate|]. inv Q. apply calmb_ok. exact H3.
Qed.

Fixpoint lawful (ok : world -> call -> bool) (fuel : nat) (react : listener) (cs : list call) (s : world * list entry) : bool :=
  match cs with
  | [] => true
  | c :: rest => ok (fst s) c &&
      match exec fuel react c s with
      | (_, Diverge) => false
      | (s1, r) => lawful ok fuel react rest (fst s1, snd s1 ++ [Made c r])
      end
  end.
Lemma play_completed : forall (P : world -> call -> Prop) ok fuel react cs s, (forall w c, ok w c = true -> P w c) ->
  completed P react s -> lawful ok fuel react cs s = true -> completed P react (play fuel react cs s).
Proof.
  intros P ok fuel react cs. induction cs as [|c cs IH]; intros s OK H L; simpl in *; [exact H|].
  apply Bool.andb_true_iff in L. destruct L as [L1 L2]. destruct (exec fuel react c s) as [s1 r] eqn:E.
  destruct r as [u|e|]; [| |discriminate]; (apply IH; auto; eapply completed_call; eauto; discriminate).
Qed.

Definition filed : world * list entry :=
  play 40 filer (made ["box"; "a"; "b"; "c"] ++ [CRelate "a" "b"; CRelate "b" "a"; CNew "d"; CAdd 5 (Some "b"); CRemove "a" false]) start.
Lemma case_filer : obeys (proper_and calm) filer /\ acts_at_ends (proper_and calm) filer /\ completed (proper_and calm) filer filed /\
  In (Made (CRelate "box" "c") (Ok tt)) (snd filed) /\ In (Made (CRelate "b" "a") (Err Circular)) (snd filed) /\
  root_children (tree_of (fst filed)) = ["box"] /\ get_parents (tree_of (fst filed)) "d" = ["b"].
Proof.
  split; [exact filer_obeys|]. split; [exact filer_ends|]. split; [apply (play_completed (proper_and calm) ok_calm 40 filer _ start ok_calm_ok); [constructor|vm_compute; reflexivity]|].
  split; [in_log 0|]. split; [in_log 0|]. split; vm_compute; reflexivity.
Qed.
