(** Model of the helpers that the headers offer and the program itself never calls:
    src/core/math_utils.h:27-31, src/core/scan_matchers/grid_scan_matcher.h:96-102,
    src/core/features/angle_histogram.h:52-57, 63-68. *)
From Coq Require Import ZArith List Bool.
From Verif.Base Require Import Outcome Num.
From Verif.Model Require Import MathUtils Geometry Sensor Histogram HcAlign.
Import ListNotations.
Local Open Scope Z_scope.
Local Open Scope outcome_scope.

Section Helpers.
  Context {D : Type} {ops : DOps D}.

  (** math_utils.h:27-31 [std::trunc]: infinities and NaN are kept; the integer part of a finite double is a double *)
  Definition trunc_double (x : D) : D := match dtrunc x with Some z => dofZ z | None => x end.
  (** math_utils.h:27-31 *)
  Definition is_multiple_of (value factor : D) : bool :=
    let ratio := ddiv value factor in are_equal ratio (trunc_double ratio).

  (** grid_scan_matcher.h:100-102; [unknown] is unknown_probability(), the quiet NaN of lines 96-98 *)
  Definition is_prob_unknown (unknown probability : D) : bool := deq probability unknown.

  (** angle_histogram.h:52-57 [min_i]: std::min_element, the first least *)
  Fixpoint min_from (best : Z) (bi i : nat) (l : list Z) : nat :=
    match l with
    | [] => bi
    | x :: l => if x <? best then min_from x i (S i) l else min_from best bi (S i) l
    end.
  Definition hist_min_i (h : hist D) : outcome nat :=
    match h_cols h with [] => Abort | x :: l => Ok (min_from x 0 1 l) end.
  (** angle_histogram.h:68 *)
  Definition minor_direction (h : hist D) : outcome D := i <- hist_min_i h ;; mean_bin_angle h i.
End Helpers.
