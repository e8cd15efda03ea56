(** Notions for the multi-resolution search on a multi-resolution map. *)
From Coq Require Import Reals ZArith List.
From Verif.Base Require Import Outcome Num EReal.
From Verif.Model Require Import Geometry Sensor Pyramid.
From Verif.Spec Require Import PyramidSpec M3Spec.
Import ListNotations.
Local Open Scope R_scope.

(** a rectangle of finite numbers *)
Definition er (r : rect R) : rect ER := mkRect (EFin (bot r)) (EFin (top r)) (EFin (left r)) (EFin (right r)).
(** the standard functions on finite numbers *)
Definition efun (f : R -> R) (x : ER) : ER := match x with EFin r => EFin (f r) | _ => ENan end.

(** an unknown cell has at most the impact of the coarser cells covering it *)
Definition unknown_bounded {C} (impact : C -> ER) (is_unknown : C -> bool) (p : pyramid ER C) : Prop :=
  forall i j fine coarse f c, (i < j)%nat -> nth_error (py_levels p) i = Some fine -> nth_error (py_levels p) j = Some coarse ->
  covers (lv_scale fine) (lv_scale coarse) f c -> is_unknown (lv_cells fine f) = true -> dle (impact (lv_cells fine f)) (impact (lv_cells coarse c)) = true.

(** what the search computes scores of: the ranges met when the window is split, and the exact candidates *)
Definition scored_range (step : R) (window r : rect R) : Prop :=
  range_of step window r \/ exists x y, candidate step window x y /\ r = point_range x y.

(** a scan in polar coordinates: ranges, angles, whether a point is an obstacle *)
Definition polar_scan (l : list (R * R * bool)) : list (scan_point ER) := map (fun '(range, angle, occ) => sp_make_polar (EFin range) (EFin angle) occ) l.
