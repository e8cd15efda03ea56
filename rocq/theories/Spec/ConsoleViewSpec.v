(** The text that shows a map: what each character stands for, and where it is. *)
From Coq Require Import ZArith List Bool Ascii Reals.
From Verif.Base Require Import Outcome Num.
From Verif.Model Require Import Geometry.
Import ListNotations.
Local Open Scope Z_scope.

(** a text whose character in line [i] from the top and column [j] from the left shows cell [(x0 + j, y1 - i)] *)
Definition shows (x0 x1 y0 y1 : Z) (ch : coord -> ascii) (text : list (list ascii)) : Prop :=
  Z.of_nat (length text) = Z.max 0 (y1 - y0 + 1) /\
  forall i line, nth_error text i = Some line ->
    Z.of_nat (length line) = Z.max 0 (x1 - x0 + 1) /\
    forall j c, nth_error line j = Some c -> c = ch (x0 + Z.of_nat j, y1 - Z.of_nat i).

(** the character of a cell: the center, occupied with more than 3/4, free with less than 1/4, neither *)
Definition map_char {D} {ops : DOps D} (center : coord) (occ : coord -> D) (c : coord) : ascii :=
  if coord_eqb center c then "C"%char
  else if dlt (dlit 3 4) (occ c) then "#"%char
  else if dlt (occ c) (dlit 1 4) then "."%char else "~"%char.

(** [q] belongs to the part of the world to be shown around [c] *)
Definition wanted (c : point R) (dl dr du dd : R) (q : point R) : Prop :=
  (fst c - dl <= fst q <= fst c + dr)%R /\ (snd c - dd <= snd q <= snd c + du)%R.
