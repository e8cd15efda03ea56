(** Model of the probability computed by the constructor of Match (src/core/scan_matchers/m3rsm_engine.h:156-182) with the
    estimator configured for the multi-resolution matcher (config/common/bf_m3rsm.properties:3: the maximal impact over the cells
    of an area), and of the scans it is computed for (301-307). *)
From Coq Require Import ZArith List Bool.
From Verif.Base Require Import Outcome Num.
From Verif.Model Require Import MathUtils Geometry Grid Sensor Spe Pyramid M3Engine.
Import ListNotations.
Local Open Scope Z_scope.
Local Open Scope outcome_scope.

Section Score.
  Context {D C : Type} {ops : DOps D}.
  Variables (dcos dsin : D -> D) (datan2 : D -> D -> D).
  Variable proto : C.                                        (* cell_prototype() *)
  Variable impact : C -> D.                                  (* estimate_impact of an obstacle, grid_scan_matcher.h:42-47 *)
  Variable weight : list (scan_point D) -> Z -> outcome D.   (* ScanPointWeighting::weight *)
  Variable fuel : nat.                                       (* bounds the walk over the cells of an area *)

  (** rescalable_caching_grid_map.h:93-112: what the estimator sees of a map is its active level.  The level's cells are a
      function of all coordinates: unbounded maps, which answer the prototype outside of their storage. *)
  Definition level_omap (l : level D C) : omap D C :=
    mkOmap (lv_w l) (lv_h l) (lv_origin l) (lv_scale l) (fun _ => true) (fun c => Ok (lv_cells l c)).
  Definition active_omap (p : pyramid D C) : outcome (omap D C) :=
    match nth_error (py_levels p) (py_active p) with Some l => Ok (level_omap l) | None => UB end.

  (** sensor_data.h:155-167 [LaserScan2D::to_cartesian]; [tp] is the scan's trigonometry provider after set_base_angle(angle) *)
  Definition scan_to_cartesian (tp : trig D) (pts : list (scan_point D)) : outcome (list (scan_point D)) :=
    mapM (sp_to_cartesian_tp datan2 tp) pts.

  (** m3rsm_engine.h:166-182 for a prerotated scan (bf_multi_res_scan_matcher.h:45); the map's levels are not written during a
      search.  [None] is the estimator's NaN. *)
  Definition match_prob (p : pyramid D C) (robot : pose D) (pts : list (scan_point D)) (drift : rect D) : outcome (option D) :=
    let avg := rect_center drift in
    p <- rescale proto p (dmax (vside_len drift) (hside_len drift)) ;;
    m <- active_omap p ;;
    estimate_scan dcos dsin datan2 (fun _ area => max_pe (fun c => Ok (impact c)) m fuel area) (weight pts)
      (dadd (px robot) (ptx avg), dadd (py robot) (pty avg)) (raw_trig dcos dsin (dofZ 0)) true drift pts.
End Score.
