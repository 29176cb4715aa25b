(** Vocabulary of the property theorems that say what happens in the cases in which
    a property is false. Definitions only. *)
From Coq Require Import Ascii.
From Verif Require Import Base Filters SpecApi.

(** The calls on a filter bank without the additions of names that begin with an
    exclamation mark. *)
Fixpoint plain_calls (l : list bcall) : list bcall :=
  match l with
  | [] => []
  | BAdd (String c rest) f d :: r => if Ascii.eqb c "!"%char then plain_calls r else BAdd (String c rest) f d :: plain_calls r
  | x :: r => x :: plain_calls r
  end.
