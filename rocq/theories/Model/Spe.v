(** Model of src/core/scan_matchers/{occupancy_observation_probability,weighted_mean_point_probability_spe,
    observation_impact_estimators,grid_scan_matcher}.h: scan probability estimation. *)
From Coq Require Import ZArith List Bool.
From Verif.Base Require Import Outcome Num.
From Verif.Model Require Import MathUtils Geometry Grid Sensor.
Import ListNotations.
Local Open Scope Z_scope.
Local Open Scope outcome_scope.

(** what the estimators use of a GridMap: a regular grid (size, origin, scale) and a const cell lookup *)
Record omap (D C : Type) := mkOmap {
  om_w : Z; om_h : Z; om_origin : coord; om_scale : D;
  om_has : coord -> bool;                 (* has_cell *)
  om_cell : coord -> outcome C            (* operator[] const *)
}.
Arguments mkOmap {D C}. Arguments om_w {D C}. Arguments om_h {D C}. Arguments om_origin {D C}. Arguments om_scale {D C}.
Arguments om_has {D C}. Arguments om_cell {D C}.

Section Oope.
  Context {D : Type} {ops : DOps D} {C : Type}.
  Variable impact : C -> outcome D.       (* observation_impact(cell, aoo), grid_scan_matcher.h:65-68 *)
  Variable m : omap D C.
  Variable fuel : nat.                    (* bounds the walk over a rectangle *)

  (** grid_scan_matcher.h:70-72 *)
  Definition is_prob_bounded (v : D) : bool := less_or_equal (dofZ 0) v && less_or_equal v (dofZ 1).

  (** occupancy_observation_probability.h:21-23, 43-44, 67-68, 92-93: impact of a cell with its assertion *)
  Definition cell_impact (c : coord) : outcome D :=
    cell <- om_cell m c ;;
    v <- impact cell ;;
    _ <- assert_ (is_prob_bounded v) ;;
    Ok v.

  (** occupancy_observation_probability.h:17-25 ([aoo.is_occupied] holds: grid_scan_matcher.h:44-46) *)
  Definition obstacle_pe (obstacle : point D) : outcome D :=
    c <- world_to_cell (om_scale m) obstacle ;;
    cell_impact c.

  (** occupancy_observation_probability.h:40-41, 64-65, 89-90: the cells of an area *)
  Definition area_cells (area : rect D) : outcome (list coord) :=
    r <- raster_rect (om_w m) (om_h m) (om_origin m) (om_scale m) area true ;;
    raster_to_vector fuel r.

  (** occupancy_observation_probability.h:42-46 *)
  Fixpoint max_loop (cells : list coord) (best : D) : outcome D :=
    match cells with
    | [] => Ok best
    | c :: cells => v <- cell_impact c ;; max_loop cells (dmax v best)
    end.
  (** occupancy_observation_probability.h:34-48 *)
  Definition max_pe (area : rect D) : outcome D :=
    cells <- area_cells area ;; max_loop cells (dofZ 0).

  (** occupancy_observation_probability.h:66-71 *)
  Fixpoint mean_loop (cells : list coord) (tot : D) (n : Z) : outcome (D * Z) :=
    match cells with
    | [] => Ok (tot, n)
    | c :: cells => v <- cell_impact c ;; mean_loop cells (dadd tot v) (n + 1)
    end.
  (** occupancy_observation_probability.h:57-73 (the unsigned counter counts fewer than 2^32 cells) *)
  Definition mean_pe (area : rect D) : outcome D :=
    cells <- area_cells area ;;
    '(tot, n) <- mean_loop cells (dofZ 0) 0 ;;
    Ok (if n =? 0 then dlit 1 2 else ddiv tot (dofZ n)).

  (** occupancy_observation_probability.h:90-97 *)
  Fixpoint overlap_loop (area : rect D) (cells : list coord) (tot wt : D) : outcome (D * D) :=
    match cells with
    | [] => Ok (tot, wt)
    | c :: cells =>
        v <- cell_impact c ;;
        b <- world_cell_bounds (om_scale m) c ;;
        w <- rect_overlap area b ;;
        overlap_loop area cells (dadd tot (dmul v w)) (dadd wt w)
    end.
  (** occupancy_observation_probability.h:82-99 *)
  Definition overlap_pe (area : rect D) : outcome D :=
    cells <- area_cells area ;;
    '(tot, wt) <- overlap_loop area cells (dofZ 0) (dofZ 0) ;;
    Ok (if negb (deq wt (dofZ 0)) then ddiv tot wt else dlit 1 2).
End Oope.

Section Spe.
  Context {D : Type} {ops : DOps D} {C : Type}.
  Variables (dcos dsin : D -> D) (datan2 : D -> D -> D).
  Variable m : omap D C.
  Variables (skip_rate : Z) (max_range : D).         (* weighted_mean_point_probability_spe.h:149-150 *)

  (** weighted_mean_point_probability_spe.h:140-145 *)
  Definition should_skip (s : scan_point D) (area_id : coord) : bool :=
    negb (sp_occ s) || negb (om_has m area_id) || are_strictly_ordered (dofZ 0) max_range (sp_range s).

  (** weighted_mean_point_probability_spe.h:82-90; [tp] is the trigonometry provider after set_base_angle(pose.theta) *)
  Fixpoint filter_loop (pose_pt : point D) (tp : trig D) (i : Z) (raw : list (scan_point D)) : outcome (list (scan_point D)) :=
    match raw with
    | [] => Ok []
    | s :: raw =>
        if negb (skip_rate =? 0) && negb (i mod skip_rate =? 0) then filter_loop pose_pt tp (i + 1) raw
        else
          p <- sp_move_origin_tp datan2 pose_pt tp s ;;
          c <- world_to_cell (om_scale m) p ;;
          rest <- filter_loop pose_pt tp (i + 1) raw ;;
          Ok (if should_skip s c then rest else s :: rest)
    end.
  (** weighted_mean_point_probability_spe.h:73-94 *)
  Definition filter_scan (pose_pt : point D) (tp : trig D) (raw : list (scan_point D)) : outcome (list (scan_point D)) :=
    filter_loop pose_pt tp 0 raw.

  (** weighted_mean_point_probability_spe.h:105-126: one point after another; [aoo_prob] estimates the observation at a
      world point with the analysis area moved there, [weight i] is the weight of point [i] *)
  Variable aoo_prob : point D -> rect D -> outcome D.
  Variable weight : Z -> outcome D.
  Definition point_prob (pose_pt : point D) (tp : trig D) (prerotated : bool) (analysis_area : rect D) (s : scan_point D) : outcome D :=
    obstacle <- (if prerotated then Ok (sp_move_origin dcos dsin pose_pt s) else sp_move_origin_tp datan2 pose_pt tp s) ;;
    area <- move_center analysis_area obstacle ;;
    aoo_prob obstacle area.
  Fixpoint estimate_loop (prob : scan_point D -> outcome D) (i : Z) (pts : list (scan_point D)) (tp tw : D) : outcome (D * D) :=
    match pts with
    | [] => Ok (tp, tw)
    | s :: pts =>
        p <- prob s ;;
        w <- weight i ;;
        estimate_loop prob (i + 1) pts (dadd tp (dmul (dmul p w) (sp_factor s))) (dadd tw w)
    end.
  (** weighted_mean_point_probability_spe.h:96-135; [None] is the quiet NaN of unknown_probability() *)
  Definition estimate_scan (pose_pt : point D) (tp : trig D) (prerotated : bool) (analysis_area : rect D)
      (pts : list (scan_point D)) : outcome (option D) :=
    '(tot, w) <- estimate_loop (point_prob pose_pt tp prerotated analysis_area) 0 pts (dofZ 0) (dofZ 0) ;;
    Ok (if deq w (dofZ 0) then None else Some (ddiv tot w)).

  (** weighted_mean_point_probability_spe.h:22-33 [EvenSPW]: 1.0 / size of the filtered scan *)
  Definition even_weight (pts : list (scan_point D)) (_ : Z) : outcome D := Ok (ddiv (dofZ 1) (dofZ (Z.of_nat (length pts)))).
  (** weighted_mean_point_probability_spe.h:49-63 [VinySlamSPW] *)
  Definition viny_weight (pts : list (scan_point D)) (i : Z) : outcome D :=
    match nth_error pts (Z.to_nat i) with
    | None => UB
    | Some s =>
        let a := sp_angle datan2 s in
        let w := dadd (dabs (dsin a)) (dabs (dcos a)) in
        let w := if dlt (dlit 9 10) (dabs (dcos a)) then dofZ 3 else if dlt (dlit 8 10) (dabs (dcos a)) then dofZ 2 else w in
        Ok (dmul w (dsqrt (sp_range s)))
    end.
End Spe.

Section Oie.
  Context {D : Type} {ops : DOps D}.
  (** observation_impact_estimators.h:14-20 [DiscrepancyOIE] *)
  Definition discrepancy_impact (discrepancy : D) : D := dsub (dofZ 1) discrepancy.
End Oie.
