(** Model of src/utils/console_view.h: a part of a map shown as text. *)
From Coq Require Import ZArith List Bool Ascii.
From Verif.Base Require Import Outcome Num.
From Verif.Model Require Import MathUtils Geometry Grid.
Import ListNotations.
Local Open Scope Z_scope.
Local Open Scope outcome_scope.

Section View.
  Context {D : Type} {ops : DOps D}.
  Variable scale : D.
  Variable read : coord -> outcome D.     (* operator[] of the map, converted to double (grid_cell.h:18) *)

  (** console_view.h:17-26; [occ] is read before (16), whatever the cell *)
  Definition cell_char (center coord : coord) (occ : D) : ascii :=
    if coord_eqb center coord then "C"%char
    else if dlt (dlit 3 4) occ then "#"%char
    else if dlt occ (dlit 1 4) then "."%char
    else "~"%char.

  (** console_view.h:14-28: one line; [n] characters, the first for the column offset [dx] *)
  Fixpoint show_row (center : coord) (dx dy : Z) (n : nat) : outcome (list ascii) :=
    match n with
    | O => Ok []
    | S n =>
        let coord := coord_add center (dx, dy) in
        occ <- read coord ;;
        r <- show_row center (dx + 1) dy n ;;
        Ok (cell_char center coord occ :: r)
    end.

  (** console_view.h:13-30: [n] lines, the first for the row offset [dy]; [-tl.x <= x <= br.x] has [tl.x + br.x + 1] columns *)
  Fixpoint show_rows (center tl br : coord) (dy : Z) (n : nat) : outcome (list (list ascii)) :=
    match n with
    | O => Ok []
    | S n =>
        r <- show_row center (- cx tl) dy (Z.to_nat (cx tl + cx br + 1)) ;;
        rs <- show_rows center tl br (dy - 1) n ;;
        Ok (r :: rs)
    end.

  (** console_view.h:4-31.  Simplification: [int] overflow in the offsets is not modelled. *)
  Definition show_grid_map (center : point D) (d_x_left d_x_right d_y_up d_y_down : D) : outcome (list (list ascii)) :=
    center_cell <- world_to_cell scale center ;;
    top_left <- world_to_cell scale (d_x_left, d_y_up) ;;
    bot_right <- world_to_cell scale (d_x_right, d_y_down) ;;
    show_rows center_cell top_left bot_right (cy top_left) (Z.to_nat (cy top_left + cy bot_right + 1)).

  (** console_view.h:33-36 *)
  Definition show_grid_map_around (center : point D) (d_x d_y : D) : outcome (list (list ascii)) :=
    show_grid_map center d_x d_x d_y d_y.
End View.
