(** Vocabulary of the property theorems about callbacks, the filter bank, counts
    and named views. Definitions only. *)
From Coq Require Import Ascii.
From Verif Require Import Base MainTree Spec Callbacks Filters FTree ViewCount Api.

(** Registries of callbacks reached by calls. *)
Inductive registered {F : Type} : registry F -> Prop :=
| rg_new : registered []
| rg_in : forall r ev f, registered r -> registered (fst (register ev f r))
| rg_out : forall r ev k, registered r -> registered (deregister ev k r).

(** The calls on a filter bank: the three that change it. *)
Inductive bcall :=
| BAdd (name : id) (f : ffun) (dic : option params)
| BRemove (name : id)
| BParam (name : id) (dic : option params).
Definition bank_call (c : bcall) (b : bank) : bank :=
  match c with
  | BAdd n f d => fst (add_filter n f d b)
  | BRemove n => fst (remove_filter n b)
  | BParam n d => bank_set_parameters n d b
  end.
Definition bank_calls (l : list bcall) : bank := fold_left (fun b c => bank_call c b) l empty_bank.

(** What a name stands for after some calls, latest first: the filter of the last
    addition that was not followed by a removal, with its last parameters. *)
Fixpoint meaning (latest_first : list bcall) (n : id) : option filt :=
  match latest_first with
  | [] => None
  | BAdd m f d :: older =>
      match meaning older n with
      | Some x => Some x
      | None => if String.eqb m n then Some (mkFilt f d) else None
      end
  | BRemove m :: older => if String.eqb m n then None else meaning older n
  | BParam m (Some d) :: older =>
      if String.eqb m n then option_map (fun x => mkFilt (f_fun x) (Some d)) (meaning older n) else meaning older n
  | BParam m None :: older => meaning older n
  end.

(** No added name begins with an exclamation mark. *)
Definition plain_names (l : list bcall) : Prop :=
  forall n f d, In (BAdd n f d) l -> forall rest, n <> String "!"%char rest.

(** Filters on a node's own data. *)
Definition local (f : ffun) : Prop := forall t t' n d nd nd',
  dget n (nodes t) = Some nd -> dget n (nodes t') = Some nd' -> data nd = data nd' -> f t n d = f t' n d.
Definition local_bank (b : bank) : Prop := forall n f, get_filter b n = Some f -> local (f_fun f).

(** A tree, a bank and a count attached to them. *)
Definition counted := (mtree * bank * vcount)%type.
Inductive ccall :=
| CCall (o : mop)
| CApply (name : id)
| CUnapply (name : id)
| CRegister (f : nat)
| CBank (c : bcall).

(** The count hears the events of a call one after the other. *)
Fixpoint hears (b : bank) (es : list event) (v : vcount) : vcount * res unit :=
  match es with
  | [] => (v, Ok tt)
  | e :: rest =>
      match vc_event b e v with
      | (v1, Ok _) => hears b rest v1
      | (v1, r) => (v1, r)
      end
  end.
Definition count_call (c : ccall) (x : counted) : counted * res unit :=
  let '(t, b, v) := x in
  match c with
  | CCall o => let '(v1, r) := hears b (events o t) v in (after o t, b, v1, r)
  | CApply n => let '(v1, r) := vc_apply_filter b t n true v in (t, b, v1, r)
  | CUnapply n => let '(v1, r) := vc_unapply_filter b t n v in (t, b, v1, r)
  | CRegister f => (t, b, vc_register f v, Ok tt)
  | CBank c => (t, bank_call c b, v, Ok tt)
  end.

(** Calls allowed for an exact count: nodes are newly built, additions do not
    raise, data of a node called like the root is not changed, applied filters are
    neither removed nor given other parameters, added filters are local. *)
Definition countable (x : counted) (c : ccall) : Prop :=
  let '(t, b, v) := x in
  match c with
  | CCall o => fresh_add o /\
      match o with AddNode _ _ _ => outcome o t = Ok tt | SetData n _ => n <> main_root | _ => True end
  | CBank (BAdd n f d) => local f /\ bang n = false
  | CBank (BRemove n) => ~ In n (vfilters v)
  | CBank (BParam n d) => ~ In n (vfilters v)
  | _ => True
  end.

(** A count is made with refresh on any tree with newly built nodes. *)
Inductive counting : counted -> Prop :=
| counting_start : forall t b, reachx any_fresh t -> local_bank b -> available b = [] -> NoDup (list_filters b) ->
    counting (t, b, fst (vc_refresh b t new_vc))
| counting_call : forall x c, counting x -> countable x c -> counting (fst (count_call c x)).

(** The nodes of the tree that satisfy all the named filters. *)
Definition satisfying (b : bank) (t : mtree) (names : list id) : list id :=
  filter (fun n => forallb (fun name =>
    match get_filter b name with
    | Some f => xorb (f_fun f t n (f_dic f)) (match f_dic f with Some d => p_negate d | None => false end)
    | None => false
    end) names) (get_all_nodes t).

(** Elements of one of two lists only. *)
Definition one_sided (a b : list id) : list id :=
  filter (fun x => xorb (mem x a) (mem x b)) (dedup (a ++ b)).

Fixpoint times {A} (n : nat) (l : list A) : list A := match n with 0 => [] | S m => l ++ times m l end.

(** The calls of an application on the whole library. *)
Inductive scall :=
| STree (o : mop)
| SView (name : option id) (refresh : bool)
| SCount (name : option id) (refresh : bool)
| SApply (view : nat) (name : id) (parameters : option params) (reset refresh : bool)
| SUnapply (view : nat) (name : id) (refresh : bool)
| SReset (view : nat) (refresh : bool)
| SBank (c : bcall)
| SMain.

Section Sys.
  Variable ord : nat -> list id -> list id.
  Definition sys_call (c : scall) (y : sys) : sys :=
    match c with
    | STree o => fst (tree_call ord o y)
    | SView n r => fst (get_viewtree ord n r y)
    | SCount n r => fst (get_viewcount n r y)
    | SApply i n p rs rf => fst (view_apply_filter ord i n p rs rf y)
    | SUnapply i n rf => fst (view_unapply_filter ord i n rf y)
    | SReset i rf => fst (view_reset_filters ord i rf y)
    | SBank c => mkSys (s_tree y) (bank_call c (s_bank y)) (s_listeners y) (s_views y) (s_counts y)
    | SMain => fst (main_filtered ord y)
    end.
  Definition sys_calls (l : list scall) (y : sys) : sys := fold_left (fun y c => sys_call c y) l y.
End Sys.

(** [numeral s n]: the digits of [s] write the number [n] in base ten. *)
Inductive numeral : string -> nat -> Prop :=
| num_digit : forall d, d < 10 -> numeral (String (ascii_of_nat (48 + d)) "") d
| num_more : forall s n d, numeral s n -> d < 10 -> numeral (s ++ String (ascii_of_nat (48 + d)) "")%string (10 * n + d).
