(** What a laser message's beams become on the machine: floats in the message, doubles in the scan. *)
From Coq Require Import Reals ZArith List.
From Flocq Require Import Core IEEE754.Binary.
From Verif.Base Require Import Outcome Num.
From Verif.Model Require Import Geometry Sensor Render LaserFloat.
Import ListNotations.
Local Open Scope R_scope.

(** the value of a float, and whether it is a number *)
Definition fin32 (x : F32) : Prop := is_finite 24 128 x = true.

(** a fan of at most 16 radians in total and 2^24 beams, with finite angles within 7 radians and a step of at most 1 *)
Definition plain_fan (m : laser_msg32) : Prop :=
  fin32 (l_amin m) /\ fin32 (l_amax m) /\ fin32 (l_inc m) /\
  Rabs (F2R32 (l_amin m)) <= 7 /\ Rabs (F2R32 (l_amax m)) <= 7 /\ Rabs (F2R32 (l_inc m)) <= 1 /\
  INR (length (l_ranges m)) * Rabs (F2R32 (l_inc m)) <= 16 /\ (Z.of_nat (length (l_ranges m)) <= 2 ^ 24)%Z.

(** the direction of beam [i] according to the message *)
Definition beam_angle (m : laser_msg32) (i : nat) : R := F2R32 (l_amin m) + INR i * F2R32 (l_inc m).

(** a beam with the (computed) angle [angle] and the range [r]: dropped if closer than [rmin]; a free point at [rmax] (or
    dropped) if not closer than [rmax]; an obstacle otherwise *)
Definition beam_point (rmin rmax : F64) (skip_max : bool) (angle r : F64) : list (scan_point F64) :=
  if dlt r rmin then []
  else if dle rmax r then (if skip_max then [] else [mkSP true rmax angle (dofZ 1) false])
  else [mkSP true r angle (dofZ 1) true].
(** [angles] gives each beam its angle *)
Definition points_of (m : laser_msg32) (skip_max : bool) (angles : list F64) : list (scan_point F64) :=
  flat_map (fun ar => beam_point (widen (l_rmin m)) (widen (l_rmax m)) skip_max (fst ar) (widen (snd ar)))
    (combine angles (l_ranges m)).

(** the machine's sine and cosine are finite and off by at most 2^-52 (glibc promises less than one unit in the last place) *)
Definition accurate (f : F64 -> F64) (g : R -> R) : Prop :=
  forall x, F_fin x = true -> F_fin (f x) = true /\ Rabs (F2R64 (f x) - g (F2R64 x)) <= bpow radix2 (-52).
