(** Model of the callback registries: MainTree.register_callback and friends
    (tree.py:52-79) and ViewTree.register_cllbck and friends (viewtree.py:89-121),
    which are the same code. *)
From Verif Require Import Base.

Section Registry.
  Context {F : Type}.

  (** The dict {key: function} of one event. *)
  Definition handlers := list (nat * F).
  Definition registry := dict handlers.

  Definition has_key (k : nat) (h : handlers) : bool := existsb (fun x => Nat.eqb (fst x) k) h.

  (** tree.py:60-62: the first free key; there are at most [length h] used ones. *)
  Fixpoint free_key (fuel k : nat) (h : handlers) : nat :=
    match fuel with
    | 0 => k
    | S f => if has_key k h then free_key f (S k) h else k
    end.

  Definition handlers_of (event : id) (r : registry) : handlers :=
    match dget event r with Some h => h | None => [] end.

  (** tree.py:52-65, viewtree.py:89-102. The key is new, so the dict grows at the
      end. *)
  Definition register (event : id) (f : F) (r : registry) : registry * nat :=
    let h := handlers_of event r in
    let k := free_key (length h) 0 h in
    (dset event (h ++ [(k, f)]) r, k).

  Fixpoint del_key (k : nat) (h : handlers) : handlers :=
    match h with
    | [] => []
    | (k', f) :: t => if Nat.eqb k k' then t else (k', f) :: del_key k t
    end.

  (** tree.py:67-72, viewtree.py:104-109: the KeyError is swallowed. *)
  Definition deregister (event : id) (k : nat) (r : registry) : registry :=
    match dget event r with
    | Some h => dset event (del_key k h) r
    | None => r
    end.

  (** tree.py:74-79, viewtree.py:111-121: the functions called, in order. *)
  Definition called (event : id) (r : registry) : list F := map snd (handlers_of event r).
End Registry.
Arguments registry : clear implicits.
Arguments handlers : clear implicits.
