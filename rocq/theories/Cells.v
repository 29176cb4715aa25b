(** Model of the colours of the widget: brightness and TreeView._celldatafunction of
    liblarch_gtk/__init__.py. *)
From Coq Require Import NArith.
From Verif Require Import Base Gtk.

(** A colour is what the column of the background has in a row of [Gtk]. *)
Definition color := nat.

Section Cells.
  (** Gdk.color_parse: the three parts, from 0 to 65535; None for a name it does
      not know. *)
  Variable parse : color -> option (N * N * N).

  (** __init__.py:37-51. BRITGHTNESS_CACHE is the list. The number is the brightness
      multiplied by 10000 * 65535, without the rounding of floats. The attributes of
      None raise AttributeError. *)
  Definition brightness (c : color) (cache : list (color * N)) : list (color * N) * res N :=
    match find (fun z => Nat.eqb (fst z) c) cache with
    | Some z => (cache, Ok (snd z))
    | None =>
        match parse c with
        | None => (cache, Err AttributeError)
        | Some (r, g, b) => let v := (2126 * r + 7152 * g + 722 * b)%N in (cache ++ [(c, v)], Ok v)
        end
    end.

  (** [brightness(color) < 0.5] *)
  Definition is_dark (v : N) : bool := N.ltb (2 * v) 655350000.

  (** A cell renderer: is it a Gtk.CellRendererText, is its foreground set (then it is
      white), and its background. One renderer draws all rows of a column. *)
  Record cell := mkCell { c_text : bool; c_white : bool; c_background : option color }.

  (** __init__.py:366-391. [bg]: bg_color_column is set; [value] is the value of that
      column, None for an invalid iterator. *)
  Definition cell_data (bg : bool) (value : option color) (cache : list (color * N)) (k : cell) : list (color * N) * cell * res unit :=
    if bg then
      if c_text k then
        match value with
        | Some c =>
            match brightness c cache with
            | (cache1, Ok v) => (cache1, mkCell true (is_dark v) value, Ok tt)
            | (cache1, Err e) => (cache1, k, Err e)
            | (cache1, Diverge) => (cache1, k, Diverge)
            end
        | None => (cache, mkCell true false None, Ok tt)
        end
      else (cache, mkCell false (c_white k) value, Ok tt)
    else (cache, k, Ok tt).

  (** The cache is shared by all widgets: cells drawn anywhere, one after the other. *)
  Fixpoint cells_data (l : list (cell * option color)) (cache : list (color * N)) : list (color * N) :=
    match l with
    | [] => cache
    | (k, v) :: rest => cells_data rest (fst (fst (cell_data true v cache k)))
    end.
End Cells.
