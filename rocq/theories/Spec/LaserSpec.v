(** What a laser message's beams become. *)
From Coq Require Import Reals ZArith List.
From Verif.Model Require Import Geometry Sensor.
Import ListNotations.
Local Open Scope R_scope.

(** beam [i] with measured range [r]: dropped if closer than [rmin]; a free point at [rmax] (or dropped) if not closer than
    [rmax]; an obstacle otherwise.  Its angle is [amin + i * inc]. *)
Definition beam_result (amin inc rmin rmax : R) (skip_max : bool) (i : nat) (r : R) : list (scan_point R) :=
  let angle := amin + INR i * inc in
  if Rlt_dec r rmin then []
  else if Rle_dec rmax r then (if skip_max then [] else [mkSP true rmax angle 1 false])
  else [mkSP true r angle 1 true].
Definition scan_of_beams (amin inc rmin rmax : R) (skip_max : bool) (ranges : list R) : list (scan_point R) :=
  flat_map (fun ir => beam_result amin inc rmin rmax skip_max (fst ir) (snd ir)) (combine (seq 0 (length ranges)) ranges).
