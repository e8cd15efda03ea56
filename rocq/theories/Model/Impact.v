(** How much a cell speaks for an observed obstacle: src/core/scan_matchers/observation_impact_estimators.h over the virtual
    [discrepancy] of the cell classes. *)
From Coq Require Import ZArith List Bool.
From Verif.Base Require Import Outcome Num.
From Verif.Model Require Import MathUtils Geometry Grid Cells Sensor Spe Matchers Config WholeSlam WholeMatcher.
Import ListNotations.
Local Open Scope Z_scope.
Local Open Scope outcome_scope.

Section Impact.
  Context {D : Type} {ops : DOps D}.
  Variable dexp : D -> D.
  (** grid_scan_matcher.h:44-46 (obstacle_AOO), 128-131 (expected_scan_point_observation) with
      weighted_mean_point_probability_spe.h:111-113: an occupied observation of probability and quality 1 at [obstacle] *)
  Definition expected_obs (obstacle : point D) : aoo D := mkAoo true (mkOcc (dofZ 1) (dofZ 1)) obstacle (dofZ 1).
  (** the virtual GridCell::discrepancy: grid_cell.h:33-35 (also for naive_grid_cells.h), tbm_grid_cells.h:21-35,
      credibilist/grid_cell.h:31-40, gmapping_grid_cell.h:35-38 *)
  Definition acell_discrepancy (c : acell D) (a : aoo D) : D :=
    match c with
    | CAffine c => gcell_discrepancy c a
    | CMean c => gcell_discrepancy (m_cell c) a
    | CConsistent c | CEven c => tcell_discrepancy c a
    | CCredibilist c => cred_discrepancy c a
    | CGmapping c => gm_discrepancy dexp c a
    end.
  (** observation_impact_estimators.h:14-20 (DiscrepancyOIE), 22-28 (OccupancyOIE) *)
  Definition oie_impact (k : oie_kind) (a : aoo D) (c : acell D) : outcome D :=
    Ok (match k with DiscrepancyOie => dsub (dofZ 1) (acell_discrepancy c a) | OccupancyOie => acell_prob c end).

  (** the matcher with its configured parts: the impact of a cell depends on where the obstacle was seen *)
  Context {E : Type}.
  Variables (dcos dsin : D -> D) (datan2 : D -> D -> D).
  Variables (oie : oie_kind) (kind : oope_kind) (cells_bound : nat).
  Variables (skip_rate : Z) (max_range : D) (weight : list (scan_point D) -> Z -> outcome D) (area : rect D).
  Variables (nan : D) (en : enumerator D E) (obs : observers) (fuel : nat).
  Notation cmap := (omap D (acell D)).
  (** occupancy_observation_probability.h:17-99 *)
  Definition observed_prob (m : cmap) (obstacle : point D) (a : rect D) : outcome D :=
    observation_prob (oie_impact oie (expected_obs obstacle)) kind cells_bound m obstacle a.
  (** weighted_mean_point_probability_spe.h:96-135 *)
  Definition pose_score (m : cmap) (scan : whole_scan D) (pts : list (scan_point D)) (p : pose D) : outcome (option D) :=
    estimate_scan dcos dsin datan2 (observed_prob m) (weight pts) (pose_point p) (snd scan (pth p)) false area pts.
  (** pose_enumeration_scan_matcher.h:31-77, as in Model/WholeMatcher.v *)
  Definition scored_match (e : E) (scan : whole_scan D) (init : pose D) (m : cmap) : outcome (D * pose D * E) :=
    pts <- filter_scan datan2 m skip_rate max_range (pose_point init) (snd scan (pth init)) (fst scan) ;;
    let score p := match pose_score m scan pts p with Ok (Some v) => v | _ => nan end in
    r <- process_scan en score obs fuel e init ;;
    if forallb (fun p => match pose_score m scan pts p with Ok _ => true | _ => false end) (mr_tested r)
    then Ok (mr_prob r, mr_delta r, mr_enum r) else UB.
End Impact.
