(** Vocabulary of the property theorems about counts that are refreshed late.
    Definitions only. *)
From Verif Require Import Base MainTree Spec Filters ViewCount SpecApi.

(** The calls on a count and its tree and bank; a filter may be applied without
    refresh. *)
Inductive lcall :=
| LCall (c : ccall)
| LApply (name : id) (refresh : bool).
Definition late_call (c : lcall) (x : counted) : counted * res unit :=
  match c with
  | LCall c => count_call c x
  | LApply n rf => let '(t, b, v) := x in let '(v1, r) := vc_apply_filter b t n rf v in (t, b, v1, r)
  end.

(** Any filters, any parameters: nodes are newly built, additions do not raise, and
    applied filters stay in the bank. *)
Definition tolerable (x : counted) (c : lcall) : Prop :=
  let '(t, b, v) := x in
  match c with
  | LCall (CCall o) => fresh_add o /\ match o with AddNode _ _ _ => outcome o t = Ok tt | _ => True end
  | LCall (CBank (BAdd n f d)) => bang n = false
  | LCall (CBank (BRemove n)) => ~ In n (vfilters v)
  | _ => True
  end.
Inductive any_count : counted -> Prop :=
| ac_start : forall t b, reachx any_fresh t -> available b = [] -> NoDup (list_filters b) -> any_count (t, b, new_vc)
| ac_call : forall x c, any_count x -> tolerable x c -> any_count (fst (late_call c x)).

(** The calls of an exact count (SpecApi), and filters applied without refresh. *)
Definition relaxed (x : counted) (c : lcall) : Prop :=
  match c with LCall c => countable x c | LApply _ _ => True end.
Inductive late_count : counted -> Prop :=
| lc_start : forall t b (refresh : bool), reachx any_fresh t -> local_bank b -> available b = [] -> NoDup (list_filters b) ->
    late_count (t, b, if refresh then fst (vc_refresh b t new_vc) else new_vc)
| lc_call : forall x c, late_count x -> relaxed x c -> late_count (fst (late_call c x)).
