(** A configured pose enumeration scan matcher: src/core/scan_matchers/pose_enumeration_scan_matcher.h over
    weighted_mean_point_probability_spe.h and occupancy_observation_probability.h. *)
From Coq Require Import ZArith List Bool.
From Verif.Base Require Import Outcome Num.
From Verif.Model Require Import MathUtils Geometry Grid Sensor Matchers Spe Config WholeSlam.
Import ListNotations.
Local Open Scope Z_scope.
Local Open Scope outcome_scope.

Section WholeMatcher.
  Context {D : Type} {ops : DOps D} {C E : Type}.
  Variables (dcos dsin : D -> D) (datan2 : D -> D -> D).
  Variables (impact : C -> outcome D) (kind : oope_kind) (cells_bound : nat).     (* the OOPE with its OIE *)
  Variables (skip_rate : Z) (max_range : D) (weight : list (scan_point D) -> Z -> outcome D) (area : rect D).
  Variables (nan : D) (en : enumerator D E) (obs : observers) (fuel : nat).

  (** occupancy_observation_probability.h:17-25, 34-48, 57-73, 82-99: the virtual [probability] *)
  Definition observation_prob (m : omap D C) (obstacle : point D) (a : rect D) : outcome D :=
    match kind with
    | ObstacleOope => obstacle_pe impact m obstacle
    | MaxOope => max_pe impact m cells_bound a
    | MeanOope => mean_pe impact m cells_bound a
    | OverlapOope => overlap_pe impact m cells_bound a
    end.
  (** grid_scan_matcher.h:122-126, 182-195 (filter_scan, scan_probability) with weighted_mean_point_probability_spe.h:96-135 *)
  Definition pose_estimate (m : omap D C) (scan : whole_scan D) (pts : list (scan_point D)) (p : pose D) : outcome (option D) :=
    estimate_scan dcos dsin datan2 (observation_prob m) (weight pts) (pose_point p) (snd scan (pth p)) false area pts.
  (** pose_enumeration_scan_matcher.h:31-77.  The scores are looked up by a total function, and the run counts only if all tested
      poses could be scored ([nan]: the quiet NaN) *)
  Definition matcher_process (e : E) (scan : whole_scan D) (init : pose D) (m : omap D C) : outcome (D * pose D * E) :=
    pts <- filter_scan datan2 m skip_rate max_range (pose_point init) (snd scan (pth init)) (fst scan) ;;
    let score p := match pose_estimate m scan pts p with Ok (Some v) => v | _ => nan end in
    r <- process_scan en score obs fuel e init ;;
    if forallb (fun p => match pose_estimate m scan pts p with Ok _ => true | _ => false end) (mr_tested r)
    then Ok (mr_prob r, mr_delta r, mr_enum r) else UB.
End WholeMatcher.
