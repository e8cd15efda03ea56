(** Not noticing the border of a bounded map. *)
From Coq Require Import ZArith List Bool.
From Verif.Base Require Import Outcome Num.
From Verif.Model Require Import Geometry Grid PlainMap Cells Sensor WholeSlam World.
From Verif.Spec Require Import MapSpec.
Import ListNotations.
Local Open Scope Z_scope.

(** the obstacles of a scan, seen from the pose [p], lie in the map *)
Definition sees_only_the_map {D} {ops : DOps D} (w h : Z) (scale : D) (datan2 : D -> D -> D) (p : pose D) (s : whole_scan D) : Prop :=
  forall pt q c, In pt (fst s) -> sp_occ pt = true ->
    sp_move_origin_tp datan2 (px p, py p) (snd s (pth p)) pt = Ok q -> world_to_cell scale q = Ok c -> binside w h c.
(** an analysis area that stays finite wherever it is moved *)
Definition stays_finite {D} {ops : DOps D} (area : rect D) : Prop :=
  forall o a, move_center area o = Ok a -> dispinf (rect_area a) = false.
(** maps that read the same in a rectangle of cells; what observers are told, with such maps *)
Definition same_inside (w h : Z) (a b : amap F64) : Prop := forall c, binside w h c -> amap_get a c = amap_get b c.
Inductive same_note_inside (w h : Z) : wnote F64 (amap F64) -> wnote F64 (amap F64) -> Prop :=
| inside_pose id p : same_note_inside w h (NPose id p) (NPose id p)
| inside_map id a b : same_inside w h a b -> same_note_inside w h (NMap id a) (NMap id b).
