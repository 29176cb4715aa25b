(** Concrete cases for the properties of callbacks, banks, counts and views. *)
From Coq Require Import Ascii.
From Verif Require Import Base BaseFacts MainTree Spec MainOps MainEvents Callbacks Filters FTree ViewCount Api SpecApi ApiFacts
  CountFacts NamedFacts Witness.

(** Two registrations, the first key freed and used again. *)
Definition reg3 : registry nat :=
  deregister "node-added" 0 (fst (register "node-deleted" 30 (fst (register "node-added" 20 (fst (register "node-added" 10 [])))))).
Lemma reg3_registered : registered reg3.
Proof. unfold reg3. repeat constructor. Qed.
Lemma reg3_example : registered reg3 /\ handlers_of "node-added" reg3 = [(1, 20)] /\
  snd (register "node-added" 40 reg3) = 0 /\ called "node-added" (fst (register "node-added" 40 reg3)) = [20; 40].
Proof. split; [apply reg3_registered|]. repeat split. Qed.
Lemma reg3_out : registered reg3 /\ called "node-added" (deregister "node-added" 1 reg3) = [] /\
  called "node-deleted" (deregister "node-added" 1 reg3) = [30] /\ called "node-added" (deregister "node-added" 7 reg3) = [20].
Proof. split; [apply reg3_registered|]. repeat split. Qed.

(** A filter on the data of a node. *)
Definition above_zero : ffun := fun t n d => match dget n (nodes t) with Some nd => Nat.ltb 0 (data nd) | None => false end.
Lemma above_zero_local : local above_zero.
Proof. intros t t' n d nd nd' H H' E. unfold above_zero. rewrite H, H', E. auto. Qed.
Definition all_nodes : ffun := fun _ _ _ => true.

Definition script : list bcall :=
  [BAdd "work" above_zero None; BAdd "all" all_nodes None; BParam "work" (Some (mkParams true false 0));
   BAdd "work" all_nodes None; BRemove "all"].
Lemma script_plain : plain_names script.
Proof.
  intros n f d H rest E. simpl in H. repeat (destruct H as [H|H]; [inversion H; subst; discriminate|]). destruct H.
Qed.
Lemma script_meaning : meaning (rev script) "work" = Some (mkFilt above_zero (Some (mkParams true false 0))) /\ meaning (rev script) "all" = None.
Proof. split; reflexivity. Qed.

Lemma bang_raises : exists n f d, snd (add_filter n f d empty_bank) = Err UnboundLocalError.
Proof. exists "!work", all_nodes, None. reflexivity. Qed.

(** Three nodes, two of which satisfy the filter. *)
Definition addv (n : id) (v : nat) : mop := AddNode n (new_node v) None.
Definition three : mtree := hist [addv "a" 1; addv "b" 0; addv "c" 2].
Definition wbank : bank := bank_calls [BAdd "work" above_zero None].
Lemma wbank_local : local_bank wbank.
Proof.
  intros n f. unfold wbank, bank_calls, get_filter. simpl. destruct (String.eqb n "work"); [|discriminate]. intros H. inv H. apply above_zero_local.
Qed.
Definition begun : counted := (three, wbank, fst (vc_refresh wbank three new_vc)).
Definition steps3 : list ccall := [CRegister 5; CApply "work"; CCall (SetData "b" 4); CCall (DelNode "a" false)].
Definition ended : counted := fold_left (fun x c => fst (count_call c x)) steps3 begun.

Lemma begun_counting : counting begun.
Proof.
  constructor; [|apply wbank_local|reflexivity|repeat constructor; simpl; tauto].
  apply run_any. reflexivity.
Qed.
Lemma ended_counting : counting ended.
Proof.
  unfold ended, steps3. cbn [fold_left].
  apply counting_call; [apply counting_call; [apply counting_call; [apply counting_call; [apply begun_counting|]|]|]|]; simpl; auto.
  split; auto. discriminate.
Qed.
Lemma ended_example : counting ended /\ vnodes (snd ended) = ["c"; "b"] /\ notified (snd ended) = [5; 5; 5].
Proof. split; [apply ended_counting|]. vm_compute. auto. Qed.
Lemma ended_next : counting ended /\ countable ended (CUnapply "work").
Proof. split; [apply ended_counting|exact I]. Qed.

(** The parameters of an applied filter change: the count keeps the old answer. *)
Lemma stale_count : exists t b v n d, counting (t, b, v) /\ In n (vfilters v) /\ snd (count_call (CBank (BParam n (Some d))) (t, b, v)) = Ok tt /\
  let '(t', b', v') := fst (count_call (CBank (BParam n (Some d))) (t, b, v)) in
  vc_n_nodes v' <> length (satisfying b' t' (vfilters v')).
Proof.
  exists (fst (fst ended)), (snd (fst ended)), (snd ended), "work", (mkParams true false 0).
  split; [apply ended_counting|]. split; [vm_compute; auto|]. split; [reflexivity|]. vm_compute. discriminate.
Qed.

Lemma unregister_raises : exists v f, In f (callbacks v) /\ snd (vc_unregister f v) = Err AttributeError /\ In f (callbacks (fst (vc_unregister f v))).
Proof. exists (vc_register 5 new_vc), 5. simpl. auto. Qed.

Definition keep : nat -> list id -> list id := fun _ l => l.
Definition asked : list scall := [STree (addv "a" 1); SView (Some "tasks") true; SView None true; SMain].
Lemma asked_example : let y := sys_calls keep asked new_sys in
  snd (get_viewtree keep (Some "other") true y) = Ok 4 /\ snd (get_viewtree keep (Some "tasks") true y) = Ok 1 /\
  snd (get_viewtree keep (Some "main") true y) = Ok 0.
Proof. vm_compute. auto. Qed.

Lemma numerals : numeral "3" 3 /\ numeral "12" 12 /\ is_compatible "3.0" = Ok true /\ is_compatible "3.12" = Ok false /\ is_compatible "2.0" = Ok false.
Proof.
  split; [apply (num_digit 3); lia|]. split; [|vm_compute; auto].
  apply (num_more "1" 1 2); [apply (num_digit 1); lia|lia].
Qed.
