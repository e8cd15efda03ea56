(** Model of src/ros/laser_scan_observer.h.  Messages hold 32-bit floats; their fields are taken as given doubles and the
    float additions at lines 47 and 80 are done in the same arithmetic. *)
From Coq Require Import ZArith List Bool.
From Verif.Base Require Import Outcome Num.
From Verif.Model Require Import MathUtils Geometry Sensor Trig.
Import ListNotations.
Local Open Scope Z_scope.
Local Open Scope outcome_scope.

Section Laser.
  Context {D : Type} {ops : DOps D}.
  Variables (dcos dsin : D -> D) (mpi : D).     (* std::cos, std::sin, M_PI *)

  (** sensor_msgs::LaserScan, the fields used *)
  Record laser_msg := mkMsg { lm_amin : D; lm_amax : D; lm_inc : D; lm_rmin : D; lm_rmax : D; lm_ranges : list D }.

  (** math_utils.h:53-55 *)
  Definition deg2rad (a : D) : D := ddiv (dmul a mpi) (dofZ 180).

  (** laser_scan_observer.h:48-67; returns the points and the last angle *)
  Fixpoint msg_points (m : laser_msg) (skip_max : bool) (ranges : list D) (angle : D) : list (scan_point D) * D :=
    match ranges with
    | [] => ([], angle)
    | r :: ranges =>
        let angle := dadd angle (lm_inc m) in
        let '(rest, last) := msg_points m skip_max ranges angle in
        if dlt r (lm_rmin m) then (rest, last)
        else if dle (lm_rmax m) r then
          if skip_max then (rest, last) else (sp_make_polar (lm_rmax m) angle false :: rest, last)
        else (sp_make_polar r angle true :: rest, last)
    end.
  (** laser_scan_observer.h:40-70 (points only) *)
  Definition msg2points (m : laser_msg) (skip_max : bool) : outcome (list (scan_point D)) :=
    let '(pts, last) := msg_points m skip_max (lm_ranges m) (dsub (lm_amin m) (lm_inc m)) in
    _ <- assert_ (are_equal_eps last (lm_amax m) (deg2rad (dlit 1 1000))) ;;
    Ok pts.
  (** laser_scan_observer.h:77-86 with caching *)
  Definition msg_trig_cache (fuel : nat) (m : laser_msg) : outcome (tcache D) :=
    tc_update dcos dsin fuel (lm_amin m) (dadd (lm_amax m) (lm_inc m)) (lm_inc m) (tc_new dcos dsin).

  (** laser_scan_observer.h:28-38: the deltas handed to the SLAM for successive transforms; [prev] is _prev_pose *)
  Fixpoint pose_deltas (prev : pose D) (poses : list (pose D)) : list (pose D) :=
    match poses with
    | [] => []
    | p :: poses => pose_sub p prev :: pose_deltas p poses
    end.
End Laser.
Arguments laser_msg D : clear implicits.
