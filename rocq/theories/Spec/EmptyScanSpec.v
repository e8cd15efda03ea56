(** Scans of which the matchers can use no point, and scores that are not numbers. *)
From Coq Require Import ZArith List Bool.
From Flocq Require Import IEEE754.Binary.
From Verif.Base Require Import Outcome Num.
From Verif.Model Require Import MathUtils Geometry Grid Sensor Spe.
Import ListNotations.
Local Open Scope Z_scope.

Section EmptyScan.
  Context {D : Type} {ops : DOps D} {C : Type}.
  (** the point at the given position of a scan can be compared with the map: its position is not skipped, it is an obstacle, its
      range is not beyond the limit, and it falls on a cell of the map *)
  Definition usable (datan2 : D -> D -> D) (m : omap D C) (skip_rate : Z) (max_range : D) (pose_pt : point D) (tp : trig D)
      (i : Z) (s : scan_point D) : Prop :=
    (skip_rate = 0 \/ i mod skip_rate = 0) /\ sp_occ s = true /\ are_strictly_ordered (dofZ 0) max_range (sp_range s) = false /\
    exists p c, sp_move_origin_tp datan2 pose_pt tp s = Ok p /\ world_to_cell (om_scale m) p = Ok c /\ om_has m c = true.
  Definition none_usable (datan2 : D -> D -> D) (m : omap D C) (skip_rate : Z) (max_range : D) (pose_pt : point D) (tp : trig D)
      (raw : list (scan_point D)) : Prop :=
    forall i s, nth_error raw i = Some s -> ~ usable datan2 m skip_rate max_range pose_pt tp (Z.of_nat i) s.
  (** the double handed out for an estimate; [nan] is the quiet NaN of an unknown probability *)
  Definition as_double (nan : D) (res : option D) : D := match res with Some v => v | None => nan end.
End EmptyScan.

(** the three coordinates of a pose are finite *)
Definition pose_finite (p : pose F64) : Prop := F_fin (px p) = true /\ F_fin (py p) = true /\ F_fin (pth p) = true.
(** the same numbers (0 and -0 are) *)
Definition pose_same (p q : pose F64) : Prop := deq (px p) (px q) = true /\ deq (py p) (py q) = true /\ deq (pth p) (pth q) = true.
