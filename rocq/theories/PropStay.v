(** Property theorems about what a call leaves alone in a view. *)
From Coq Require Import Permutation.
From Verif Require Import Base MainTree Spec Filters FTree SpecApi SpecView SpecViewing SpecStay Gtk SpecGtk FtStay StayRows
  Witness ApiWitness ViewWitness ViewCases GtkWitness StayCases.

(** C67. A path that the view has before and after a supported call on the tree is
    neither deleted nor added by the signals of this call. *)
Theorem C67_stays : forall ord, (forall k l, Permutation (ord k l) l) ->
  forall o t b s t' b' s' r, viewing ord (t, b, s) -> supported (t, b, s) (VTree o) -> view_call ord (VTree o) (t, b, s) = (t', b', s', r) ->
  forall q, view_path s q -> view_path s' q -> undisturbed q (news s s').
Proof. exact view_stays. Qed.
Print Assumptions C67_stays.
Example C67_stays_example : viewing keep vshow /\ supported vshow (VTree (RemoveParent "d" "b")) /\
  view_call keep (VTree (RemoveParent "d" "b")) vshow = (vless, Ok tt) /\
  view_path (snd vshow) ["a"; "c"; "d"] /\ view_path (snd vless) ["a"; "c"; "d"] /\ view_path (snd vshow) ["a"; "b"; "d"] /\
  news (snd vshow) (snd vless) = less_news.
Proof. exact case_less. Qed.

(** C67. A supported call about the parents of one node keeps all paths without this
    node, and its signals neither delete nor add them. *)
Theorem C67_elsewhere : forall ord, (forall k l, Permutation (ord k l) l) ->
  forall o c t b s t' b' s' r, viewing ord (t, b, s) -> supported (t, b, s) (VTree o) -> about o = Some c ->
  view_call ord (VTree o) (t, b, s) = (t', b', s', r) ->
  forall q, view_path s q -> ~ In c q -> view_path s' q /\ undisturbed q (news s s').
Proof. exact view_elsewhere. Qed.
Print Assumptions C67_elsewhere.
Example C67_elsewhere_example : viewing keep vshow /\ supported vshow (VTree (MoveNode "b" (Some "c"))) /\ about (MoveNode "b" (Some "c")) = Some "b" /\
  view_call keep (VTree (MoveNode "b" (Some "c"))) vshow = (vmove, Ok tt) /\
  view_path (snd vshow) ["a"; "c"; "d"] /\ ~ In "b" ["a"; "c"; "d"] /\
  In (SDeleted "d" ["a"; "b"; "d"]) (news (snd vshow) (snd vmove)) /\ length (news (snd vshow) (snd vmove)) = 17.
Proof. exact case_elsewhere. Qed.

(** C68. The row of a path that is there before and after a supported call on the
    tree is the same row. What is missing: allocators that give the address of a
    removed row to a new one. *)
Theorem C68_rows_partial : forall ord pf, (forall k l, Permutation (ord k l) l) -> faithful pf -> never_reuses pf ->
  forall o t b s g t' b' s' g' r0, watching ord pf (t, b, s) g -> supported (t, b, s) (VTree o) ->
  widget_call ord pf (VTree o) (t, b, s) g = (t', b', s', g', r0) ->
  forall r q, at_path (rows g) r q -> view_path s' q -> exists r', at_path (rows g') r' q /\ r_addr r' = r_addr r.
Proof. exact watching_stays. Qed.
Print Assumptions C68_rows_partial.
Example C68_rows_example : faithful counting /\ never_reuses counting /\
  watching keep counting (fst (fst (fst wend)), snd (fst (fst wend)), snd (fst wend)) (snd wend) /\
  supported (fst wend) (VTree (NewRelationship "a" "z")) /\
  widget_call keep counting (VTree (NewRelationship "a" "z")) (fst wend) (snd wend) = (wmore, Ok tt) /\
  at_path (rows (snd wend)) (mkRow 18 (Some 10) "z" (Some 3)) ["a"; "c"; "d"; "z"] /\ view_path (snd (fst wmore)) ["a"; "c"; "d"; "z"] /\
  rows (snd wmore) = [mkRow 6 (Some 0) "c" (Some 5); mkRow 56 (Some 0) "z" (Some 3); mkRow 18 (Some 10) "z" (Some 3); mkRow 10 (Some 6) "d" (Some 2); mkRow 0 None "a" (Some 1)].
Proof. exact case_rows. Qed.

(** C68. It fails when addresses are given out again: X loses its place below A, but its
    row below B is removed. *)
Theorem C68_reuse_refuted : exists pf o t b s g t' b' s' g' r q, faithful pf /\ watching keep pf (t, b, s) g /\ supported (t, b, s) (VTree o) /\
  widget_call keep pf (VTree o) (t, b, s) g = (t', b', s', g', Ok tt) /\
  view_path s q /\ at_path (rows g) r q /\ view_path s' q /\ forall r', ~ at_path (rows g') r' q.
Proof. exact witness_reuse. Qed.
Print Assumptions C68_reuse_refuted.

(** C67. Refreshing the filters deletes and adds paths that stay. *)
Theorem C67_refilter_refuted : exists t b s s' q n, viewing keep (t, b, s) /\ supported (t, b, s) VRefilter /\ view_call keep VRefilter (t, b, s) = (t, b, s', Ok tt) /\
  view_path s q /\ view_path s' q /\ In (SDeleted n q) (news s s') /\ In (SAdded n q) (news s s').
Proof. exact witness_rebuilt. Qed.
Print Assumptions C67_refilter_refuted.

(** C67. Moving a node adds and deletes paths that are there neither before nor after. *)
Theorem C67_passing_refuted : exists t b s s' o q n, viewing keep (t, b, s) /\ supported (t, b, s) (VTree o) /\ view_call keep (VTree o) (t, b, s) = (after o t, b, s', Ok tt) /\
  ~ view_path s q /\ ~ view_path s' q /\ In (SAdded n q) (news s s') /\ In (SDeleted n q) (news s s').
Proof. exact witness_passing. Qed.
Print Assumptions C67_passing_refuted.
