(** Concrete widgets used by the examples and the refutations. *)
From Coq Require Import Permutation.
From Verif Require Import Base BaseFacts MainTree Spec Filters FTree SpecApi SpecView SpecViewing Gtk SpecGtk Widget SpecWidget
  Witness ApiWitness ViewWitness GtkWitness GtkFacts WidgetPlaces.

Inductive ustep := UCall (c : vcall) | UFold (n : id) | UIdle.
Definition use_step (pf : platform) (u : ustep) (w : viewed * panel) : viewed * panel :=
  let '(x, p) := w in
  match u with
  | UCall c => fst (panel_call pf keep c x p)
  | UFold n => let '(s', p', _) := collapse_node false [n] (snd x) p in (fst x, s', p')
  | UIdle => let '(s', p', _) := run_idle (snd x) p in (fst x, s', p')
  end.
Fixpoint use_steps (pf : platform) (l : list ustep) (w : viewed * panel) : viewed * panel :=
  match l with [] => w | u :: r => use_steps pf r (use_step pf u w) end.
Definition step_okb (u : ustep) (x : viewed) : bool :=
  match u with
  | UCall c => supportedb x c && match c with VQueue _ a => Nat.leb 2 a | _ => true end
  | UFold n => negb (String.eqb (strip n) "")
  | UIdle => true
  end.
Fixpoint steps_okb (pf : platform) (l : list ustep) (w : viewed * panel) : bool :=
  match l with [] => true | u :: r => step_okb u (fst w) && steps_okb pf r (use_step pf u w) end.
Fixpoint asked_for (l : list ustep) (asked : list id) : list id :=
  match l with [] => asked | UFold n :: r => asked_for r (strip n :: asked) | _ :: r => asked_for r asked end.

Lemma use_steps_ok : forall pf start l asked w, in_use keep pf start asked (fst w) (snd w) -> steps_okb pf l w = true ->
  in_use keep pf start (asked_for l asked) (fst (use_steps pf l w)) (snd (use_steps pf l w)).
Proof.
  intros pf start l. induction l as [|u l IH]; intros asked w U H; cbn [use_steps asked_for steps_okb] in *; auto. apply andb_true_iff in H. destruct H as [H1 H2].
  destruct w as [[[t b] s] p]. destruct u as [c|n|]; cbn [step_okb fst snd] in *.
  - apply IH; auto. apply andb_true_iff in H1. destruct H1 as [H1 H3]. apply supportedb_ok in H1.
    apply (use_call keep pf start asked (t, b, s) p c _ _ (snd (panel_call pf keep c (t, b, s) p))); auto.
    + intros n a ->. apply Nat.leb_le. auto.
    + cbn [use_step]. destruct (panel_call pf keep c (t, b, s) p) as [[x1 p1] r1]. reflexivity.
  - apply IH; auto. cbn [use_step fst snd]. destruct (collapse_node false [n] s p) as [[s' p'] r] eqn:E.
    apply (use_collapse keep pf start asked t b s p [] n s' p' r); auto. bools; auto.
  - apply IH; auto. cbn [use_step fst snd]. destruct (run_idle s p) as [[s' p'] r] eqn:E. apply (use_idle keep pf start asked t b s p s' p' r); auto.
Qed.

Definition built (pf : platform) (x : viewed) : viewed * panel := fst (build_panel pf x).
Lemma built_ok : forall pf (start : viewed -> Prop) x, viewing keep x -> start x -> (forall n, waiting (snd x) n = []) ->
  in_use keep pf start [] (fst (built pf x)) (snd (built pf x)).
Proof.
  intros pf start x V S W. apply (use_start keep pf start x _ _ (snd (build_panel pf x))); auto.
  - intros n a H. rewrite W in H. destruct H.
  - unfold built. destruct (build_panel pf x) as [[y p] r]. reflexivity.
Qed.
Lemma use_parts : forall pf start asked x p, in_use keep pf start asked x p -> in_use keep pf start asked (fst (fst x), snd (fst x), snd x) p.
Proof. intros pf start asked [[t b] s] p H. exact H. Qed.

(** A widget for a tree without nodes. *)
Definition eview : viewed := opened keep (hist []) empty_bank (Some "v") [].
Lemma eview_viewing : viewing keep eview.
Proof.
  constructor. split; [apply run_calm; reflexivity|]. split; [reflexivity|]. split.
  - intros x Hx. simpl in Hx. repeat destruct Hx as [<-|Hx]; try reflexivity. all: destruct Hx.
  - split; [intros n f H; discriminate|]. split; [reflexivity|constructor].
Qed.
Definition usteps : list ustep :=
  [UCall (VTree (put "a" 5 None)); UCall (VTree (put "b" 4 (Some "a"))); UFold "e"; UFold "'h'"; UCall (VTree (put "c" 3 (Some "b")));
   UCall (VTree (put "e" 2 None)); UCall (VTree (put "f" 1 (Some "e"))); UCall (VTree (put "g" 1 (Some "f")));
   UCall (VTree (put "h" 1 (Some "a"))); UCall (VTree (put "i" 0 (Some "h"))); UIdle; UIdle].
Definition uend : viewed * panel := use_steps counting usteps (built counting eview).
Lemma eview_flat : no_nesting eview.
Proof. intros [|x l] [H1 H2]; [congruence|]. destruct H2 as [H2 _]. vm_compute in H2. destruct H2. Qed.
Lemma uend_use : in_use keep counting no_nesting ["h"; "e"] (fst uend) (snd uend).
Proof.
  apply (use_steps_ok counting no_nesting usteps []); [|vm_compute; reflexivity].
  apply built_ok; [exact eview_viewing|exact eview_flat|]. intros n. reflexivity.
Qed.
Lemma in_use_more : forall pf (start start' : viewed -> Prop) asked x p, (forall x, start x -> start' x) -> in_use keep pf start asked x p -> in_use keep pf start' asked x p.
Proof.
  intros pf start start' asked x p S H. induction H; [eapply use_start|eapply use_call|eapply use_sort|eapply use_collapse|eapply use_idle]; eauto.
Qed.
Lemma uend_any : in_use keep counting anything ["h"; "e"] (fst uend) (snd uend).
Proof. apply (in_use_more counting no_nesting); [constructor|exact uend_use]. Qed.
Definition row_a := mkRow 0 None "a" (Some 5).
Definition row_b := mkRow 2 (Some 0) "b" (Some 4).
Definition row_c := mkRow 6 (Some 2) "c" (Some 3).
Definition row_e := mkRow 12 None "e" (Some 2).
Definition row_h := mkRow 24 (Some 0) "h" (Some 1).
Definition row_f := mkRow 14 (Some 12) "f" (Some 1).
Definition row_g := mkRow 18 (Some 14) "g" (Some 1).
Definition row_i := mkRow 28 (Some 24) "i" (Some 0).
Definition urows : list row := [row_a; row_b; row_c; row_e; row_h; row_f; row_g; row_i].
Lemma uend_urows : rows (store (snd uend)) = urows.
Proof. vm_compute. reflexivity. Qed.
Lemma uend_state : expanded (snd uend) = [0; 0; 2; 2] /\ idle_calls (snd uend) = [].
Proof. vm_compute. auto. Qed.
Ltac here := vm_compute; auto 20.
Lemma uend_b : at_path (rows (store (snd uend))) row_b ["a"; "b"] /\ has_below (rows (store (snd uend))) row_b /\ is_open (snd uend) row_b.
Proof.
  unfold is_open. rewrite uend_urows, (proj1 uend_state). split.
  - apply (at_below urows row_b row_a ["a"]); [here|here|]. apply (at_top urows row_a); here.
  - split; [exists row_c; here|here].
Qed.
Lemma uend_f : at_path (rows (store (snd uend))) row_f ["e"; "f"] /\ has_below (rows (store (snd uend))) row_f /\ ~ is_open (snd uend) row_f.
Proof.
  unfold is_open. rewrite uend_urows, (proj1 uend_state). split.
  - apply (at_below urows row_f row_e ["e"]); [here|here|]. apply (at_top urows row_e); here.
  - split; [exists row_g; here|]. intros H. vm_compute in H. intuition discriminate.
Qed.
Lemma case_open : faithful counting /\ never_reuses counting /\ in_use keep counting no_nesting ["h"; "e"] (fst (fst (fst uend)), snd (fst (fst uend)), snd (fst uend)) (snd uend) /\
  idle_calls (snd uend) = [] /\
  (at_path (rows (store (snd uend))) row_b ["a"; "b"] /\ has_below (rows (store (snd uend))) row_b /\ is_open (snd uend) row_b) /\
  (at_path (rows (store (snd uend))) row_f ["e"; "f"] /\ has_below (rows (store (snd uend))) row_f /\ ~ is_open (snd uend) row_f).
Proof.
  split; [exact counting_fresh|]. split; [exact counting_new|]. split; [exact (use_parts _ _ _ _ _ uend_use)|]. split; [exact (proj2 uend_state)|].
  split; [exact uend_b|exact uend_f].
Qed.
Lemma case_use : faithful counting /\ never_reuses counting /\ viewing keep vstart /\ (forall n, waiting (snd vstart) n = []) /\
  in_use keep counting anything ["h"; "e"] (fst (fst (fst uend)), snd (fst (fst uend)), snd (fst uend)) (snd uend) /\
  rows (store (snd uend)) = urows.
Proof.
  split; [exact counting_fresh|]. split; [exact counting_new|]. split; [exact vstart_viewing|]. split; [reflexivity|].
  split; [exact (use_parts _ _ _ _ _ uend_any)|exact uend_urows].
Qed.

(** A widget made when nodes are there already: their rows are closed. *)
Definition late : viewed * panel := built counting vstart.
Lemma late_use : in_use keep counting anything [] (fst late) (snd late).
Proof. apply built_ok; [exact vstart_viewing|exact I|reflexivity]. Qed.
Lemma built_closed : exists t b s p r, faithful counting /\ never_reuses counting /\ in_use keep counting anything [] (t, b, s) p /\ idle_calls p = [] /\
  In r (rows (store p)) /\ has_below (rows (store p)) r /\ ~ is_open p r.
Proof.
  exists (fst (fst (fst late))), (snd (fst (fst late))), (snd (fst late)), (snd late), (mkRow 0 None "a" (Some 1)).
  split; [exact counting_fresh|]. split; [exact counting_new|]. split; [exact (use_parts _ _ _ _ _ late_use)|]. split; [vm_compute; reflexivity|].
  split; [vm_compute; auto 10|]. split; [|intros H; vm_compute in H; exact H]. exists (mkRow 2 (Some 0) "b" (Some 1)). split; [vm_compute; auto 10|reflexivity].
Qed.

(** expand_node of a node without children: it stays closed when it gets one. *)
Definition lone : viewed * panel := use_steps counting [UCall (VTree (put "a" 5 None)); UCall (VTree (put "'q'" 4 None))] (built counting eview).
Lemma lone_use : in_use keep counting no_nesting [] (fst lone) (snd lone).
Proof.
  apply (use_steps_ok counting no_nesting [UCall (VTree (put "a" 5 None)); UCall (VTree (put "'q'" 4 None))] []); [|vm_compute; reflexivity].
  apply built_ok; [exact eview_viewing|exact eview_flat|reflexivity].
Qed.
Definition lone_opened : ft * panel := fst (collapse_node true ["a"] (snd (fst lone)) (snd lone)).
Definition lone_child : viewed * panel := fst (panel_call counting keep (VTree (put "b" 4 (Some "a"))) (fst (fst lone), fst lone_opened) (snd lone_opened)).
Lemma expand_closes : exists t b s p s1 p1 t2 b2 s2 p2 c r, in_use keep counting no_nesting [] (t, b, s) p /\
  collapse_node true ["a"] s p = (s1, p1, Ok tt) /\ supported (t, b, s1) c /\ panel_call counting keep c (t, b, s1) p1 = (t2, b2, s2, p2, Ok tt) /\
  In r (rows (store p2)) /\ r_id r = "a" /\ has_below (rows (store p2)) r /\ ~ is_open p2 r.
Proof.
  exists (fst (fst (fst lone))), (snd (fst (fst lone))), (snd (fst lone)), (snd lone), (fst lone_opened), (snd lone_opened).
  exists (fst (fst (fst lone_child))), (snd (fst (fst lone_child))), (snd (fst lone_child)), (snd lone_child), (VTree (put "b" 4 (Some "a"))), (mkRow 0 None "a" (Some 5)).
  split; [exact (use_parts _ _ _ _ _ lone_use)|]. split; [vm_compute; reflexivity|]. split; [apply supportedb_ok; vm_compute; reflexivity|].
  split; [vm_compute; reflexivity|]. split; [here|]. split; [reflexivity|]. split; [exists (mkRow 4 (Some 0) "b" (Some 4)); split; [vm_compute; auto 10|reflexivity]|]. intros H. vm_compute in H. exact H.
Qed.

(** Quotes around the id of a node. *)
Definition quoted : viewed * panel := use_steps counting [UCall (VTree (put "'q'" 4 None)); UCall (VTree (put "r" 3 (Some "'q'")))] (built counting eview).
Lemma quoted_use : in_use keep counting no_nesting [] (fst quoted) (snd quoted).
Proof.
  apply (use_steps_ok counting no_nesting [UCall (VTree (put "'q'" 4 None)); UCall (VTree (put "r" 3 (Some "'q'")))] []); [|vm_compute; reflexivity].
  apply built_ok; [exact eview_viewing|exact eview_flat|reflexivity].
Qed.
Definition quoted_folded : ft * panel := fst (collapse_node false ["'q'"] (snd (fst quoted)) (snd quoted)).
Lemma quotes_open : exists t b s p s1 p1 n r, in_use keep counting no_nesting [] (t, b, s) p /\ at_path (rows (store p)) r [n] /\
  collapse_node false [n] s p = (s1, p1, Ok tt) /\ idle_calls p1 = [] /\ store p1 = store p /\ is_open p1 r.
Proof.
  exists (fst (fst (fst quoted))), (snd (fst (fst quoted))), (snd (fst quoted)), (snd quoted), (fst quoted_folded), (snd quoted_folded), "'q'", (mkRow 0 None "'q'" (Some 4)).
  split; [exact (use_parts _ _ _ _ _ quoted_use)|]. split; [apply (at_top _ (mkRow 0 None "'q'" (Some 4))); [vm_compute; auto 10|reflexivity]|].
  split; [vm_compute; reflexivity|]. split; [vm_compute; reflexivity|]. split; [vm_compute; reflexivity|here].
Qed.

(** The name of the root of the view: the idle callback comes back for ever. *)
Definition rooted : viewed * panel := use_steps counting [UCall (VTree (put "a" 5 None)); UFold "root_v"] (built counting eview).
Lemma rooted_use : in_use keep counting no_nesting ["root_v"] (fst rooted) (snd rooted).
Proof.
  apply (use_steps_ok counting no_nesting [UCall (VTree (put "a" 5 None)); UFold "root_v"] []); [|vm_compute; reflexivity].
  apply built_ok; [exact eview_viewing|exact eview_flat|reflexivity].
Qed.
Lemma busy_forever : exists t b s p, in_use keep counting no_nesting ["root_v"] (t, b, s) p /\ idle_calls p <> [] /\
  forall k, Nat.iter k (fun z => fst (run_idle (fst z) (snd z))) (s, p) = (s, p).
Proof.
  exists (fst (fst (fst rooted))), (snd (fst (fst rooted))), (snd (fst rooted)), (snd rooted).
  split; [exact (use_parts _ _ _ _ _ rooted_use)|]. split; [vm_compute; discriminate|].
  assert (E : fst (run_idle (snd (fst rooted)) (snd rooted)) = (snd (fst rooted), snd rooted)) by (vm_compute; reflexivity).
  intros k. induction k as [|k IH]; [reflexivity|]. cbn [Nat.iter nat_rect]. change (nat_rect _ _ _ k) with (Nat.iter k (fun z => fst (run_idle (fst z) (snd z))) (snd (fst rooted), snd rooted)). rewrite IH. exact E.
Qed.

(** *** Drag and drop *)
Definition ustore : gtk := store (snd uend).
Lemma case_places : faithful counting /\ never_reuses counting /\
  in_use keep counting anything ["h"; "e"] (fst (fst (fst uend)), snd (fst (fst uend)), snd (fst uend)) (snd uend) /\
  indices 28 (store (snd uend)) = Some [0; 1; 0] /\ option_map r_id (row_for [0; 1; 0] (store (snd uend))) = Some "i" /\
  emitted [0; 1; 0] (store (snd uend)) = Ok ["a"; "h"; "i"] /\
  map (fun ix => row_for ix (store (snd uend))) [[1; 0]; [0]] = map Some [row_f; row_a].
Proof.
  split; [exact counting_fresh|]. split; [exact counting_new|]. split; [exact (use_parts _ _ _ _ _ uend_any)|]. split; [vm_compute; reflexivity|].
  split; [vm_compute; reflexivity|]. split; vm_compute; reflexivity.
Qed.
Definition dropped : viewed * panel := fst (drop_here counting keep (Some ([1; 0], Before)) [[0; 1]; [0; 5]; [0; 0; 0]] (fst uend) (snd uend)).
Lemma case_drop : faithful counting /\ never_reuses counting /\
  in_use keep counting anything ["h"; "e"] (fst (fst (fst uend)), snd (fst (fst uend)), snd (fst uend)) (snd uend) /\
  rows_for [[0; 1]; [0; 5]; [0; 0; 0]] (store (snd uend)) = [row_h; row_c] /\
  (row_for [1; 0] (store (snd uend)) = Some row_f /\ at_path (rows (store (snd uend))) row_f ["e"; "f"] /\ goes_to Before ["e"; "f"] = Some "e") /\
  map (fun r => (r_id r, r_parent r)) (rows (store (snd dropped))) =
    [("a", None); ("b", Some 0); ("c", Some 12); ("e", None); ("f", Some 12); ("g", Some 14); ("h", Some 12); ("i", Some 54)].
Proof.
  split; [exact counting_fresh|]. split; [exact counting_new|]. split; [exact (use_parts _ _ _ _ _ uend_any)|]. split; [vm_compute; reflexivity|].
  split; [split; [vm_compute; reflexivity|split; [exact (proj1 uend_f)|reflexivity]]|]. vm_compute. reflexivity.
Qed.
Lemma case_apart : faithful counting /\ never_reuses counting /\
  in_use keep counting anything ["h"; "e"] (fst (fst (fst uend)), snd (fst (fst uend)), snd (fst uend)) (snd uend) /\
  destination (Some ([1; 0], Before)) (store (snd uend)) = Ok (Some "e") /\
  apart (rows (store (snd uend))) (rows_for [[0; 1]; [0; 5]; [0; 0; 0]] (store (snd uend))) /\
  rows_for [[0; 1]; [0; 5]; [0; 0; 0]] (store (snd uend)) = [row_h; row_c].
Proof.
  assert (E : rows_for [[0; 1]; [0; 5]; [0; 0; 0]] (store (snd uend)) = [row_h; row_c]) by (vm_compute; reflexivity).
  split; [exact counting_fresh|]. split; [exact counting_new|]. split; [exact (use_parts _ _ _ _ _ uend_any)|]. split; [vm_compute; reflexivity|]. split; [|exact E].
  destruct (in_use_layout keep counting keep_perm counting_fresh counting_new _ _ _ _ _ _ (use_parts _ _ _ _ _ uend_any)) as (L & cs & HL & _).
  rewrite E. cbn [apart]. split; [|split; [intros r' l []|exact I]]. intros r' l [<-|[]] P.
  assert (Q : at_path (rows (store (snd uend))) row_c ["a"; "b"; "c"]).
  { rewrite uend_urows. apply (at_below urows row_c row_b ["a"; "b"]); [here|here|]. apply (at_below urows row_b row_a ["a"]); [here|here|]. apply (at_top urows row_a); here. }
  apply (layout_at _ _ _ HL) in P, Q. destruct (lay_addr _ _ _ HL _ _ _ _ P Q eq_refl) as [-> _]. simpl. intuition discriminate.
Qed.
Lemma below_left : exists t b s p t' b' s' p' r r', in_use keep counting anything ["h"; "e"] (t, b, s) p /\
  map (fun ix => row_for ix (store p)) [[0]; [0; 0]] = map Some [r; r'] /\
  drop_here counting keep (Some ([1], Into)) [[0]; [0; 0]] (t, b, s) p = (t', b', s', p', Ok tt) /\
  get_parents t' (r_id r) = ["e"] /\ get_parents t' (r_id r') = get_parents t (r_id r') /\ get_parents t (r_id r') <> ["e"] /\
  outcome (MoveNode (r_id r') (Some "e")) t' = Ok tt.
Proof.
  pose (d := fst (drop_here counting keep (Some ([1], Into)) [[0]; [0; 0]] (fst uend) (snd uend))).
  exists (fst (fst (fst uend))), (snd (fst (fst uend))), (snd (fst uend)), (snd uend), (fst (fst (fst d))), (snd (fst (fst d))), (snd (fst d)), (snd d), row_a, row_b.
  split; [exact (use_parts _ _ _ _ _ uend_any)|]. split; [vm_compute; reflexivity|]. split; [vm_compute; reflexivity|].
  split; [vm_compute; reflexivity|]. split; [vm_compute; reflexivity|]. split; [vm_compute; discriminate|vm_compute; reflexivity].
Qed.

(** Two names set: one drop is handled twice, and the second time another row has
    the place of the dragged one. *)
Lemma handled_twice : exists t b s p t' b' s' p', in_use keep counting anything ["h"; "e"] (t, b, s) p /\
  handlers (dnd_after [Name "x"; Name "y"]) = 2 /\ option_map r_id (row_for [0; 0] (store p)) = Some "b" /\
  received counting keep (handlers (dnd_after [Name "x"; Name "y"])) (fun _ => None) [[0; 0]] (t, b, s) p = (t', b', s', p') /\
  get_parents t "h" = ["a"] /\ get_parents t' "b" = [] /\ get_parents t' "h" = [].
Proof.
  pose (d := received counting keep 2 (fun _ => None) [[0; 0]] (fst uend) (snd uend)).
  exists (fst (fst (fst uend))), (snd (fst (fst uend))), (snd (fst uend)), (snd uend), (fst (fst (fst d))), (snd (fst (fst d))), (snd (fst d)), (snd d).
  split; [exact (use_parts _ _ _ _ _ uend_any)|]. split; [reflexivity|]. split; [vm_compute; reflexivity|]. split; [vm_compute; reflexivity|].
  split; [vm_compute; reflexivity|]. split; vm_compute; reflexivity.
Qed.

Definition sources_set : list dnd_call := [External "tasks" 7; Name "x"; External "tags" 9].
Lemma case_called : faithful counting /\ never_reuses counting /\
  in_use keep counting anything ["h"; "e"] (fst (fst (fst uend)), snd (fst (fst uend)), snd (fst uend)) (snd uend) /\
  nth_error (sources sources_set) 1 = Some ("tags", 9) /\ row_for [1; 0] (store (snd uend)) = Some row_f /\
  at_path (rows (store (snd uend))) row_f ["e"; "f"] /\ goes_to After ["e"; "f"] = Some "e" /\
  map (fun jx => row_for jx (store (snd lone))) [[0]; [1]] = map Some [mkRow 0 None "a" (Some 5); mkRow 2 None "'q'" (Some 4)] /\
  drop_external (dnd_after sources_set) 2 (Some ([1; 0], After)) [[0]; [1]] (store (snd uend)) (store (snd lone)) = Ok [(9, "a", "e"); (9, "'q'", "e")].
Proof.
  split; [exact counting_fresh|]. split; [exact counting_new|]. split; [exact (use_parts _ _ _ _ _ uend_any)|]. split; [reflexivity|]. split; [vm_compute; reflexivity|].
  split; [exact (proj1 uend_f)|]. split; [reflexivity|]. split; vm_compute; reflexivity.
Qed.
Lemma root_ignored : exists t b s p cs i n f paths src r, in_use keep counting anything ["h"; "e"] (t, b, s) p /\
  init_dnd (dnd_after cs) = Ok (targets (dnd_after cs)) /\ nth_error (sources cs) i = Some (n, f) /\ map (fun jx => row_for jx src) paths = [Some r] /\
  drop_external (dnd_after cs) (S i) None paths (store p) src = Ok [].
Proof.
  exists (fst (fst (fst uend))), (snd (fst (fst uend))), (snd (fst uend)), (snd uend), sources_set, 1, "tags", 9, [[0]], (store (snd lone)), (mkRow 0 None "a" (Some 5)).
  split; [exact (use_parts _ _ _ _ _ uend_any)|]. split; [reflexivity|]. split; [reflexivity|]. split; vm_compute; reflexivity.
Qed.
Lemma empty_raises : exists t b s p cs i n f src, in_use keep counting anything ["h"; "e"] (t, b, s) p /\ nth_error (sources cs) i = Some (n, f) /\
  drop_external (dnd_after cs) (S i) (Some ([0], Into)) (carried []) (store p) src = Err ValueError.
Proof.
  exists (fst (fst (fst uend))), (snd (fst (fst uend))), (snd (fst uend)), (snd uend), sources_set, 1, "tags", 9, (store (snd lone)).
  split; [exact (use_parts _ _ _ _ _ uend_any)|]. split; [reflexivity|]. vm_compute. reflexivity.
Qed.
Lemma case_one : faithful counting /\ never_reuses counting /\
  in_use keep counting anything ["h"; "e"] (fst (fst (fst uend)), snd (fst (fst uend)), snd (fst uend)) (snd uend) /\
  destination (Some ([1], Into)) (store (snd uend)) = Ok (Some "e") /\ row_for [0; 0] (store (snd uend)) = Some row_b.
Proof.
  split; [exact counting_fresh|]. split; [exact counting_new|]. split; [exact (use_parts _ _ _ _ _ uend_any)|]. split; vm_compute; reflexivity.
Qed.
Lemma case_built : faithful counting /\ never_reuses counting /\ viewing keep vstart /\ (forall n, waiting (snd vstart) n = []) /\
  map r_id (rows (store (snd late))) = ["d"; "a"; "b"].
Proof. split; [exact counting_fresh|]. split; [exact counting_new|]. split; [exact vstart_viewing|]. split; [reflexivity|]. vm_compute. reflexivity. Qed.
Lemma case_calls : faithful counting /\ never_reuses counting /\
  in_use keep counting anything ["h"; "e"] (fst (fst (fst uend)), snd (fst (fst uend)), snd (fst uend)) (snd uend) /\
  supported (fst (fst (fst uend)), snd (fst (fst uend)), snd (fst uend)) (VTree (DelNode "a" true)) /\ strip "'b'" = "b" /\
  rows (store (snd (fst (panel_call counting keep (VTree (DelNode "a" true)) (fst uend) (snd uend))))) = [row_e; row_f; row_g].
Proof.
  split; [exact counting_fresh|]. split; [exact counting_new|]. split; [exact (use_parts _ _ _ _ _ uend_any)|].
  split; [apply supportedb_ok; vm_compute; reflexivity|]. split; vm_compute; reflexivity.
Qed.
