(** Concrete counts that are refreshed late, or not at all. *)
From Verif Require Import Base BaseFacts MainTree Spec Witness Filters ViewCount SpecApi ApiFacts ApiWitness CountFacts SpecCount CountLate.

Definition wbank2 : bank := bank_calls [BAdd "work" above_zero None; BAdd "all" all_nodes None].
Lemma wbank2_local : local_bank wbank2.
Proof.
  intros n f. unfold wbank2, bank_calls, get_filter. simpl. destruct (String.eqb n "work"); [intros H; inv H; apply above_zero_local|].
  destruct (String.eqb n "all"); [|discriminate]. intros H. inv H. intros t t' m d nd nd' _ _ _. reflexivity.
Qed.
Definition late_steps : list lcall := [LCall (CRegister 5); LApply "work" false; LCall (CCall (SetData "b" 4)); LCall (CCall (DelNode "a" false))].
Definition lately : counted := fold_left (fun x c => fst (late_call c x)) late_steps (three, wbank2, new_vc).
Lemma lately_late : late_count lately.
Proof.
  unfold lately, late_steps. cbn [fold_left].
  apply lc_call; [apply lc_call; [apply lc_call; [apply lc_call; [|]|]|]|]; simpl; auto.
  - apply (lc_start three wbank2 false); [apply run_any; reflexivity|apply wbank2_local|reflexivity|repeat constructor; simpl; intuition discriminate].
  - split; auto. discriminate.
Qed.
Lemma lately_apply : late_count lately /\ has_filter (snd (fst lately)) "all" = true /\ ~ In "all" (vfilters (snd lately)) /\
  vnodes (snd lately) = ["b"] /\ vnodes (fst (vc_apply_filter (snd (fst lately)) (fst (fst lately)) "all" true (snd lately))) = ["b"; "c"].
Proof. split; [apply lately_late|]. split; [reflexivity|]. split; [vm_compute; intuition discriminate|]. split; reflexivity. Qed.

Definition early_steps : list lcall := [LApply "work" false; LCall (CCall (SetData "c" 0))].
Definition early : counted := fold_left (fun x c => fst (late_call c x)) early_steps (three, wbank2, fst (vc_refresh wbank2 three new_vc)).
Lemma early_late : late_count early /\ initialized (snd early) = true /\ vnodes (snd early) = ["a"; "b"] /\
  satisfying (snd (fst early)) (fst (fst early)) (vfilters (snd early)) = ["a"].
Proof.
  split; [|split; [reflexivity|split; reflexivity]]. unfold early, early_steps. cbn [fold_left].
  apply lc_call; [apply lc_call; [|]|]; simpl; auto; try (split; auto; discriminate).
  apply (lc_start three wbank2 true); [apply run_any; reflexivity|apply wbank2_local|reflexivity|repeat constructor; simpl; intuition discriminate].
Qed.

(** Any filter: here one that looks at the whole tree, with parameters changed later. *)
Definition crowded : ffun := fun t _ _ => Nat.ltb 2 (length (get_all_nodes t)).
Definition odd_steps : list lcall := [LCall (CBank (BAdd "crowded" crowded None)); LCall (CApply "work"); LApply "crowded" false;
  LCall (CBank (BParam "work" (Some (mkParams true false 0)))); LCall (CCall (DelNode "a" false)); LCall (CCall (addv "d" 7))].
Definition oddly : counted := fold_left (fun x c => fst (late_call c x)) odd_steps (three, wbank2, new_vc).
Lemma oddly_any : any_count oddly /\ In "crowded" (vfilters (snd oddly)) /\ vnodes (snd oddly) = ["c"] /\
  vnodes (fst (vc_unapply_filter (snd (fst oddly)) (fst (fst oddly)) "crowded" (snd oddly))) = ["b"].
Proof.
  split; [|split; [vm_compute; auto|split; reflexivity]]. unfold oddly, odd_steps. cbn [fold_left].
  repeat (apply ac_call; [|first [reflexivity|exact I|split; [exact I|exact I]|split; [apply an_new|reflexivity]]]).
  apply ac_start; [apply run_any; reflexivity|reflexivity|repeat constructor; simpl; intuition discriminate].
Qed.

(** Without a refresh the nodes that exist are not counted, *)
Lemma unrefreshed : exists t b v, late_count (t, b, v) /\ vfilters v = [] /\ vc_n_nodes v <> length (satisfying b t (vfilters v)).
Proof.
  exists three, wbank2, new_vc. split; [|split; [reflexivity|vm_compute; discriminate]].
  apply (lc_start three wbank2 false); [apply run_any; reflexivity|apply wbank2_local|reflexivity|repeat constructor; simpl; intuition discriminate].
Qed.

(** the data of a node called "root" changes without an event, *)
Definition rooted_three : mtree := hist [addv "a" 1; addv "root" 0].
Definition begun_root : counted := (rooted_three, wbank, fst (vc_refresh wbank rooted_three new_vc)).
Lemma root_stale : exists x n w, counting x /\ snd (count_call (CCall (SetData n w)) x) = Ok tt /\
  let '(t', b', v') := fst (count_call (CCall (SetData n w)) x) in
  outcome (SetData n w) (fst (fst x)) = Ok tt /\ vc_n_nodes v' <> length (satisfying b' t' (vfilters v')).
Proof.
  exists (fst (count_call (CApply "work") begun_root)), "root", 5. split; [|split; [reflexivity|vm_compute; split; [reflexivity|discriminate]]].
  apply counting_call; [|exact I]. constructor; [apply run_any; reflexivity|apply wbank_local|reflexivity|repeat constructor; simpl; tauto].
Qed.

(** and after an applied filter was removed from the bank the next event raises. *)
Lemma removed_raises : exists x n o, counting x /\ In n (vfilters (snd x)) /\ fresh_add o /\ outcome o (fst (fst x)) = Ok tt /\
  snd (count_call (CCall o) (fst (count_call (CBank (BRemove n)) x))) = Err AttributeError.
Proof.
  exists ended, "work", (SetData "b" 0). split; [apply ended_counting|]. split; [vm_compute; auto|]. split; [exact I|]. split; reflexivity.
Qed.
