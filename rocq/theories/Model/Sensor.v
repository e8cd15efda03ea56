(** Model of src/core/states/{sensor_data,robot_pose}.h: scan points, scans, poses. *)
From Coq Require Import ZArith List Bool.
From Verif.Base Require Import Outcome Num.
From Verif.Model Require Import MathUtils Geometry.
Import ListNotations.
Local Open Scope Z_scope.
Local Open Scope outcome_scope.

Section Pose.
  Context {D : Type} {ops : DOps D}.
  (** robot_pose.h:96-136 [RobotPose]; 10-56 [RobotPoseDelta]: three doubles *)
  Record pose := mkPose { px : D; py : D; pth : D }.
  (** robot_pose.h:133 *)
  Definition pose_point (p : pose) : point D := (px p, py p).
  (** robot_pose.h:120-131 (and 18-23, 30-32 for deltas) *)
  Definition pose_add (p d : pose) : pose := mkPose (dadd (px p) (px d)) (dadd (py p) (py d)) (dadd (pth p) (pth d)).
  (** robot_pose.h:116-118 *)
  Definition pose_sub (p q : pose) : pose := mkPose (dsub (px p) (px q)) (dsub (py p) (py q)) (dsub (pth p) (pth q)).
  (** robot_pose.h:34-36 *)
  Definition delta_opp (d : pose) : pose := mkPose (dopp (px d)) (dopp (py d)) (dopp (pth d)).
  (** robot_pose.h:12 *)
  Definition delta_zero : pose := mkPose (dofZ 0) (dofZ 0) (dofZ 0).
  (** robot_pose.h:44-46 [explicit operator bool] *)
  Definition delta_nonzero (d : pose) : bool :=
    negb (are_equal (px d) (dofZ 0)) || negb (are_equal (py d) (dofZ 0)) || negb (are_equal (pth d) (dofZ 0)).
  (** robot_pose.h:48-50 *)
  Definition delta_abs (d : pose) : pose := mkPose (dabs (px d)) (dabs (py d)) (dabs (pth d)).
  (** robot_pose.h:51 *)
  Definition delta_sq_dist (d : pose) : D := dadd (dmul (px d) (px d)) (dmul (py d) (py d)).
  (** robot_pose.h:38-43 *)
  Definition is_abs_less (a b : pose) : bool :=
    dlt (dabs (px a)) (dabs (px b)) && dlt (dabs (py a)) (dabs (py b)) && dlt (dabs (pth a)) (dabs (pth b)).
End Pose.
Arguments pose D : clear implicits.

Section Scan.
  Context {D : Type} {ops : DOps D}.
  Variables (dcos dsin : D -> D) (datan2 : D -> D -> D).   (* std::cos, std::sin, std::atan2(y, x) *)

  (** sensor_data.h:14-137 [ScanPoint2D]: [sp_polar] is [_type], [sp_u]/[sp_v] the two doubles of the union *)
  Record scan_point := mkSP { sp_polar : bool; sp_u : D; sp_v : D; sp_factor : D; sp_occ : bool }.
  (** sensor_data.h:19-46 *)
  Definition sp_make_polar (range angle : D) (occ : bool) : scan_point := mkSP true range angle (dofZ 1) occ.
  Definition sp_make_cartesian (p : point D) (occ : bool) : scan_point := mkSP false (ptx p) (pty p) (dofZ 1) occ.
  (** sensor_data.h:47-53 *)
  Definition sp_range (s : scan_point) : D :=
    if sp_polar s then sp_u s else dsqrt (dadd (dmul (sp_u s) (sp_u s)) (dmul (sp_v s) (sp_v s))).
  (** sensor_data.h:54-59 *)
  Definition sp_angle (s : scan_point) : D := if sp_polar s then sp_v s else datan2 (sp_v s) (sp_u s).
  (** sensor_data.h:60-65 *)
  Definition sp_x (s : scan_point) : D := if sp_polar s then dmul (sp_u s) (dcos (sp_v s)) else sp_u s.
  (** sensor_data.h:66-71 *)
  Definition sp_y (s : scan_point) : D := if sp_polar s then dmul (sp_u s) (dsin (sp_v s)) else sp_v s.

  (** a trigonometry provider after [set_base_angle]: trigonometry_utils.h:10-15 *)
  Record trig := mkTrig { tp_cos : D -> outcome D; tp_sin : D -> outcome D }.
  (** trigonometry_utils.h:17-35 *)
  Definition raw_trig (base : D) : trig :=
    mkTrig (fun a => Ok (dcos (dadd base a))) (fun a => Ok (dsin (dadd base a))).

  (** sensor_data.h:83-94 [move_origin(x, y, provider)] *)
  Definition sp_move_origin_tp (p : point D) (tp : trig) (s : scan_point) : outcome (point D) :=
    c <- tp_cos tp (sp_angle s) ;;
    sn <- tp_sin tp (sp_angle s) ;;
    Ok (dadd (ptx p) (dmul (sp_range s) c), dadd (pty p) (dmul (sp_range s) sn)).
  (** sensor_data.h:96-101 [move_origin(x, y, angle)] *)
  Definition sp_move_origin_angle (p : point D) (d_angle : D) (s : scan_point) : point D :=
    let patched := sp_make_polar (sp_range s) (dadd (sp_angle s) d_angle) (sp_occ s) in
    (dadd (sp_x patched) (ptx p), dadd (sp_y patched) (pty p)).
  (** sensor_data.h:103-105 *)
  Definition sp_move_origin (p : point D) (s : scan_point) : point D :=
    (dadd (sp_x s) (ptx p), dadd (sp_y s) (pty p)).
  (** sensor_data.h:77-80 *)
  Definition sp_to_cartesian_tp (tp : trig) (s : scan_point) : outcome scan_point :=
    p <- sp_move_origin_tp (dofZ 0, dofZ 0) tp s ;; Ok (sp_make_cartesian p (sp_occ s)).
  (** sensor_data.h:107-113 *)
  Definition sp_to_cartesian (d_angle d_range : D) (s : scan_point) : scan_point :=
    let patched := sp_make_polar (dadd (sp_range s) d_range) (dadd (sp_angle s) d_angle) (sp_occ s) in
    sp_make_cartesian (sp_x patched, sp_y patched) (sp_occ patched).
  (** sensor_data.h:115-121 *)
  Definition sp_to_polar (d_x d_y : D) (s : scan_point) : scan_point :=
    let patched := sp_make_cartesian (dadd (sp_x s) d_x, dadd (sp_y s) d_y) (sp_occ s) in
    sp_make_polar (sp_range patched) (sp_angle patched) (sp_occ patched).
End Scan.
Arguments scan_point D : clear implicits.
Arguments trig D : clear implicits.
