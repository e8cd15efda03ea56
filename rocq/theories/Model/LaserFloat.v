(** Model of src/ros/laser_scan_observer.h on the machine's types: the fields of a sensor_msgs::LaserScan are floats
    (binary32), the conversion computes with doubles (binary64).  Model/LaserObserver.v has the same code over one type
    of numbers. *)
From Coq Require Import ZArith List Bool.
From Flocq Require Import Core IEEE754.BinarySingleNaN IEEE754.Binary IEEE754.Bits.
From Verif.Base Require Import Outcome Num.
From Verif.Model Require Import MathUtils Geometry Sensor Trig LaserObserver Render.
Import ListNotations.
Local Open Scope Z_scope.
Local Open Scope outcome_scope.

(** sensor_msgs::LaserScan, the fields used *)
Record laser_msg32 := mkMsg32 { l_amin : F32; l_amax : F32; l_inc : F32; l_rmin : F32; l_rmax : F32; l_ranges : list F32 }.

(** the implicit conversion of a float to double, which is exact (the payload of a NaN is not kept) *)
Definition widen (x : F32) : F64 :=
  match x with
  | B754_zero _ _ s => B754_zero 53 1024 s
  | B754_infinity _ _ s => B754_infinity 53 1024 s
  | B754_nan _ _ _ _ _ => proj1_sig default_nan_pl64
  | B754_finite _ _ s m e _ => binary_normalize 53 1024 eq_refl eq_refl mode_NE (if s then Zneg m else Zpos m) e s
  end.
(** M_PI, the double next to pi: 884279719003555 / 2^48 *)
Definition f_pi : F64 := ddiv (dofZ 884279719003555) (dofZ (2 ^ 48)).

(** all fields as doubles *)
Definition widen_msg (m : laser_msg32) : laser_msg F64 :=
  mkMsg (widen (l_amin m)) (widen (l_amax m)) (widen (l_inc m)) (widen (l_rmin m)) (widen (l_rmax m)) (map widen (l_ranges m)).

(** laser_scan_observer.h:40-70 (points only): the difference on line 47 is one of floats; lines 51-58 compare doubles with
    floats, which are converted; line 51 adds a float to a double *)
Definition msg2points32 (m : laser_msg32) (skip_max : bool) : outcome (list (scan_point F64)) :=
  let '(pts, last) := msg_points (widen_msg m) skip_max (map widen (l_ranges m)) (widen (b32_minus mode_NE (l_amin m) (l_inc m))) in
  _ <- assert_ (are_equal_eps last (widen (l_amax m)) (deg2rad f_pi (dlit 1 1000))) ;;
  Ok pts.

(** laser_scan_observer.h:77-86 with caching: the sum on line 80 is one of floats *)
Definition msg_trig_cache32 (dcos dsin : F64 -> F64) (fuel : nat) (m : laser_msg32) : outcome (tcache F64) :=
  tc_update dcos dsin fuel (widen (l_amin m)) (widen (b32_plus mode_NE (l_amax m) (l_inc m))) (widen (l_inc m)) (tc_new dcos dsin).
