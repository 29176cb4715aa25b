(** Model of liblarch/filters_bank.py. *)
From Coq Require Import Ascii.
From Verif Require Import Base MainTree.

(** A parameter dict: [None] is the empty dict, otherwise the two keys that the
    library itself reads (filters_bank.py:46, 56), 'negate' and 'flat', and one
    number for everything the filter function itself reads. *)
Record params := mkParams { p_negate : bool; p_flat : bool; p_value : nat }.

(** A filter function: Python's [func(task)] or [func(task, parameters=dic)]. The
    node object gives access to its tree, so the function may depend on the
    whole tree. Simplification: the function is total, returns a boolean, and
    does not change the tree. *)
Definition ffun := mtree -> id -> option params -> bool.

(** filters_bank.py:25-29; [self.tree] is the only MainTree. *)
Record filt := mkFilt { f_fun : ffun; f_dic : option params }.

(** filters_bank.py:31-33: an empty or missing dict does not replace. *)
Definition set_parameters (dic : option params) (f : filt) : filt :=
  match dic with Some _ => mkFilt (f_fun f) dic | None => f end.

(** filters_bank.py:35-49 *)
Definition filt_displayed (t : mtree) (f : filt) (n : id) : bool :=
  if has_node t n then
    let value := f_fun f t n (f_dic f) in
    match f_dic f with
    | Some d => if p_negate d then negb value else value
    | None => value
    end
  else false.

(** filters_bank.py:51-56 *)
Definition is_flat (f : filt) : bool :=
  match f_dic f with Some d => p_flat d | None => false end.

(** filters_bank.py:64-75 *)
Record bank := mkBank { available : dict filt; custom : dict filt }.
Definition empty_bank : bank := mkBank [] [].

(** filters_bank.py:79-86 *)
Definition get_filter (b : bank) (name : id) : option filt :=
  match dget name (available b) with
  | Some f => Some f
  | None => dget name (custom b)
  end.

(** filters_bank.py:88-90 *)
Definition has_filter (b : bank) (name : id) : bool :=
  dmem name (available b) || dmem name (custom b).

(** filters_bank.py:92-96 *)
Definition list_filters (b : bank) : list id := dkeys (available b) ++ dkeys (custom b).

(** [filter_name.startswith('!')] *)
Definition bang (name : id) : bool :=
  match name with
  | String c _ => Ascii.eqb c "!"%char
  | EmptyString => false
  end.

(** filters_bank.py:98-113. In the '!' branch [filter_obj] is never assigned, so
    line 110 raises UnboundLocalError. *)
Definition add_filter (name : id) (f : ffun) (dic : option params) (b : bank) : bank * res bool :=
  if mem name (list_filters b) then (b, Ok false)
  else if bang name then (b, Err UnboundLocalError)
  else (mkBank (available b) (dset name (set_parameters dic (mkFilt f None)) (custom b)), Ok true).

(** filters_bank.py:115-128 *)
Definition remove_filter (name : id) (b : bank) : bank * bool :=
  if dmem name (available b) then (b, false)
  else if dmem name (custom b) then (mkBank (available b) (ddel name (custom b)), true)
  else (b, false).

(** [filt.set_parameters(parameters)] on the object found by get_filter
    (filteredtree.py:613-615): the object is shared, so the bank changes. *)
Definition bank_set_parameters (name : id) (dic : option params) (b : bank) : bank :=
  match dget name (available b) with
  | Some f => mkBank (dset name (set_parameters dic f) (available b)) (custom b)
  | None =>
      match dget name (custom b) with
      | Some f => mkBank (available b) (dset name (set_parameters dic f) (custom b))
      | None => b
      end
  end.

(** filteredtree.py:335-348 (__is_displayed): does the node pass all the applied
    filters? An unknown filter name hides everything. *)
Fixpoint passes (b : bank) (t : mtree) (names : list id) (n : id) : bool :=
  match names with
  | [] => true
  | name :: rest =>
      match get_filter b name with
      | Some f => if filt_displayed t f n then passes b t rest n else false
      | None => false
      end
  end.

Definition should_display (b : bank) (t : mtree) (names : list id) (n : id) : bool :=
  if truthy n && has_node t n then passes b t names n else false.

(** filteredtree.py:312-317: is one of the applied filters flat? *)
Fixpoint any_flat (b : bank) (names : list id) : bool :=
  match names with
  | [] => false
  | name :: rest =>
      match get_filter b name with
      | Some f => if is_flat f then true else any_flat b rest
      | None => any_flat b rest
      end
  end.
