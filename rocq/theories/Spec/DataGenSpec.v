(** What a text raster looks like on a map, and what a cecum (a corridor closed at one end) looks like as a text raster. *)
From Coq Require Import Ascii String ZArith List Bool Reals.
From Verif.Model Require Import Properties.
Import ListNotations.
Local Open Scope Z_scope.

(** the lines of a text up to the first empty one *)
Fixpoint until_empty (l : list str) : list str :=
  match l with [] => [] | r :: l => match r with [] => [] | _ => r :: until_empty l end end.
Definition raster_lines (text : str) : list str := until_empty (getlines text).
(** width and height in characters *)
Definition raster_w (lines : list str) : Z := fold_right (fun r w => Z.max (Z.of_nat (length r)) w) 0 lines.
Definition raster_h (lines : list str) : Z := Z.of_nat (length lines).
(** The character drawn at [(x, y)] when each one covers [wz] x [hz] cells, the first one's top left cell is [(0, 0)], columns
    go right (x grows), lines go down (y falls). *)
Definition pixel (lines : list str) (wz hz : Z) (c : Z * Z) : option ascii :=
  if (0 <=? fst c) && (snd c <=? 0) then
    match nth_error lines (Z.to_nat (- snd c / hz)) with
    | Some row => nth_error row (Z.to_nat (fst c / wz))
    | None => None
    end
  else None.

(** a cecum's wall: [closed] is its closed end; the open end is opposite to it *)
Inductive side := SLeft | SRight | STop | SBottom.
Definition wall (w h : Z) (closed : side) (col row : Z) : bool :=
  match closed with
  | STop => (col =? 0) || (col =? w - 1) || (row =? 0)
  | SBottom => (col =? 0) || (col =? w - 1) || (row =? h - 1)
  | SLeft => (row =? 0) || (row =? h - 1) || (col =? 0)
  | SRight => (row =? 0) || (row =? h - 1) || (col =? w - 1)
  end.
