(** Model of the frame alignment of the hill climber: src/core/scan_matchers/hill_climbing_scan_matcher.h:128-170 and the
    direction queries of src/core/features/angle_histogram.h:63-67. *)
From Coq Require Import ZArith List Bool.
From Verif.Base Require Import Outcome Num.
From Verif.Model Require Import MathUtils Geometry Sensor Matchers Histogram.
Import ListNotations.
Local Open Scope Z_scope.
Local Open Scope outcome_scope.

Section HcAlign.
  Context {D : Type} {ops : DOps D}.
  Variables (dcos dsin dacos : D -> D) (mpi : D).

  (** angle_histogram.h:63-65; the unsigned count is converted to double, an empty column gives 0/0 *)
  Definition mean_bin_angle (h : hist D) (i : nat) : outcome D :=
    match nth_error (h_sums h) i, nth_error (h_cols h) i with
    | Some s, Some c => Ok (ddiv s (dofZ c))
    | _, _ => UB
    end.
  (** angle_histogram.h:67 *)
  Definition major_direction (h : hist D) : outcome D := i <- hist_max_i h ;; mean_bin_angle h i.

  (** hill_climbing_scan_matcher.h:73-81 with its fourth argument, which no statement of the class reads *)
  Definition frl_new_at (max_failed : Z) (tr rot frame_rotation : D) : frl D := frl_new max_failed tr rot.

  (** hill_climbing_scan_matcher.h:166-169 (fields) with the enumerator held by the base class *)
  Record hc_matcher := mkHc { hc_max : Z; hc_tr : D; hc_rot : D; hc_align : bool; hc_pe : frl D }.
  (** hill_climbing_scan_matcher.h:133-143; [use_frame_alignement] is declared as a double made of a bool (0 or 1) *)
  Definition hc_new (max : Z) (tr rot : D) (align : bool) : hc_matcher :=
    mkHc max tr rot align (frl_new max tr rot).
  (** hill_climbing_scan_matcher.h:155-164 *)
  Definition hc_prepare (m : hc_matcher) (pts : list (scan_point D)) : outcome hc_matcher :=
    if hc_align m then
      h <- hist_reset dcos dsin dacos mpi 20 pts ;;
      rot <- major_direction h ;;
      Ok (mkHc (hc_max m) (hc_tr m) (hc_rot m) (hc_align m) (frl_new_at (hc_max m) (hc_tr m) (hc_rot m) rot))
    else Ok m.
  (** hill_climbing_scan_matcher.h:145-152; the score of a pose depends on the scan and the map of the call *)
  Definition hc_process (score : pose D -> D) (obs : observers) (fuel : nat) (m : hc_matcher) (pts : list (scan_point D))
      (init : pose D) : outcome (match_result D (frl D) * hc_matcher) :=
    m <- hc_prepare m pts ;;
    r <- process_scan frl_enum score obs fuel (hc_pe m) init ;;
    Ok (r, mkHc (hc_max m) (hc_tr m) (hc_rot m) (hc_align m) (mr_enum r)).
End HcAlign.
Arguments hc_matcher D : clear implicits.
