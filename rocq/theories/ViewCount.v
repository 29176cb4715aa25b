(** Model of liblarch/viewcount.py (class ViewCount). *)
From Verif Require Import Base MainTree Filters.

(** viewcount.py:22-38. [callbacks] are the registered functions, as numbers;
    [notified] is a ghost: the callbacks run so far, in order. [ncount] and [name]
    are never read. *)
Record vcount := mkVC {
  initialized : bool;
  vfilters : list id;
  vnodes : list id;
  callbacks : list nat;
  notified : list nat
}.

Definition new_vc : vcount := mkVC false [] [] [] [].

Definition set_vnodes (l : list id) (v : vcount) : vcount :=
  mkVC (initialized v) (vfilters v) l (callbacks v) (notified v).

(** viewcount.py:102-104. Simplification: the callbacks do not raise and do not
    change the tree or the count. *)
Definition vc_notify (v : vcount) : vcount :=
  mkVC (initialized v) (vfilters v) (vnodes v) (callbacks v) (notified v ++ callbacks v).

(** viewcount.py:92-95 *)
Definition vc_delete (n : id) (v : vcount) : vcount :=
  if mem n (vnodes v) then vc_notify (set_vnodes (remove1 n (vnodes v)) v) else v.

(** viewcount.py:97-100 *)
Definition vc_add (n : id) (v : vcount) : vcount :=
  if mem n (vnodes v) then v else vc_notify (set_vnodes (vnodes v ++ [n]) v).

(** viewcount.py:83-86: every filter is evaluated, no early exit; a filter that
    left the bank gives None.is_displayed, an AttributeError. *)
Fixpoint vc_displayed (b : bank) (t : mtree) (names : list id) (n : id) : res bool :=
  match names with
  | [] => Ok true
  | name :: rest =>
      match get_filter b name with
      | None => Err AttributeError
      | Some f =>
          match vc_displayed b t rest n with
          | Ok d => Ok (filt_displayed t f n && d)
          | x => x
          end
      end
  end.

(** viewcount.py:78-90 *)
Definition vc_modify (b : bank) (t : mtree) (n : id) (v : vcount) : vcount * res unit :=
  match vc_displayed b t (vfilters v) n with
  | Ok true => (vc_add n v, Ok tt)
  | Ok false => (vc_delete n v, Ok tt)
  | Err e => (v, Err e)
  | Diverge => (v, Diverge)
  end.

Fixpoint vc_modify_all (b : bank) (t : mtree) (l : list id) (v : vcount) : vcount * res unit :=
  match l with
  | [] => (v, Ok tt)
  | n :: rest =>
      match vc_modify b t n v with
      | (v1, Ok _) => vc_modify_all b t rest v1
      | (v1, r) => (v1, r)
      end
  end.

Definition set_initialized (v : vcount) : vcount :=
  mkVC true (vfilters v) (vnodes v) (callbacks v) (notified v).

(** viewcount.py:40-43 *)
Definition vc_refresh (b : bank) (t : mtree) (v : vcount) : vcount * res unit :=
  match vc_modify_all b t (get_all_nodes t) v with
  | (v1, Ok _) => (set_initialized v1, Ok tt)
  | (v1, r) => (v1, r)
  end.

(** viewcount.py:45-58 *)
Definition vc_apply_filter (b : bank) (t : mtree) (name : id) (refresh : bool) (v : vcount)
  : vcount * res unit :=
  if has_filter b name then
    if mem name (vfilters v) then (v, Ok tt)
    else
      let v1 := mkVC (initialized v) (vfilters v ++ [name]) (vnodes v) (callbacks v) (notified v) in
      if refresh then
        if initialized v1 then vc_modify_all b t (vnodes v1) v1
        else vc_refresh b t v1
      else (v1, Ok tt)
  else (v, Ok tt).

(** viewcount.py:60-64 *)
Definition vc_unapply_filter (b : bank) (t : mtree) (name : id) (v : vcount) : vcount * res unit :=
  if mem name (vfilters v) then
    vc_modify_all b t (get_all_nodes t)
      (mkVC (initialized v) (remove1 name (vfilters v)) (vnodes v) (callbacks v) (notified v))
  else (v, Ok tt).

(** viewcount.py:67-69 *)
Definition vc_register (f : nat) (v : vcount) : vcount :=
  if existsb (Nat.eqb f) (callbacks v) then v
  else mkVC (initialized v) (vfilters v) (vnodes v) (callbacks v ++ [f]) (notified v).

(** viewcount.py:71-73: [self.cllbacks] is a misspelling of [self.cllbcks]. *)
Definition vc_unregister (f : nat) (v : vcount) : vcount * res unit := (v, Err AttributeError).

(** viewcount.py:75-76 *)
Definition vc_n_nodes (v : vcount) : nat := length (vnodes v).

(** viewcount.py:26-28: the reaction to the events of the main tree. *)
Definition vc_event (b : bank) (e : event) (v : vcount) : vcount * res unit :=
  match ev_kind e with
  | EDeleted => (vc_delete (ev_id e) v, Ok tt)
  | _ => vc_modify b (ev_tree e) (ev_id e) v
  end.
