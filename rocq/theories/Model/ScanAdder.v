(** Model of src/core/maps/grid_map_scan_adders.h.  The map is any type with an [update]; its scale does not change
    while a scan is added. *)
From Coq Require Import ZArith List Bool.
From Verif.Base Require Import Outcome Num.
From Verif.Model Require Import MathUtils Geometry Grid Cells Sensor.
Import ListNotations.
Local Open Scope Z_scope.
Local Open Scope outcome_scope.

(** conversion double -> size_t: UB unless the truncated value fits *)
Definition to_size (z : option Z) : outcome Z :=
  match z with
  | Some v => if (0 <=? v) && (v <? 2 ^ 64) then Ok v else UB
  | None => UB
  end.

Section ScanAdder.
  Context {D : Type} {ops : DOps D} {M : Type}.
  Variable map_update : M -> coord -> aoo D -> outcome M.          (* GridMap::update *)
  Variable scale : D.                                              (* map.scale() *)
  Variable estimate : segment D -> rect D -> bool -> outcome (occup D).  (* CellOccupancyEstimator (virtual) *)
  Variable omqe_quality : list (scan_point D) -> Z -> outcome D.   (* after reset(scan) *)
  Variables (max_usable_range blur_distance : D).                  (* grid_map_scan_adders.h:106-110 *)
  Variable datan2 : D -> D -> D.

  (** geometry_discrete_primitives.h:43-45 *)
  Definition cdist_sq (a b : coord) : D :=
    dadd (dmul (dofZ (cx a - cx b)) (dofZ (cx a - cx b))) (dmul (dofZ (cy a - cy b)) (dofZ (cy a - cy b))).
  (** geometry_primitives.h:74-76 *)
  Definition length_sq (s : segment D) : D := dist_sq (send s) (sbeg s).

  (** grid_map_scan_adders.h:176-189 *)
  Definition blur_cell_dist (beam : segment D) (is_occ : bool) : D :=
    if negb is_occ then dofZ 0
    else
      let blur_dist := ddiv blur_distance scale in
      if dlt blur_dist (dofZ 0) then dmul blur_dist (dopp (length_sq beam)) else blur_dist.

  (** grid_map_scan_adders.h:158-171: the observation for one cell of the ray before its last one *)
  Definition free_cell_obs (beam : segment D) (q : D) (base : occup D) (obst_pt : coord) (obst_dist_sq hole_dist_sq : D)
      (pt : coord) : outcome (aoo D) :=
    let dsq := cdist_sq pt obst_pt in
    bnds <- world_cell_bounds scale pt ;;
    occ <- estimate beam bnds false ;;
    Ok (if dlt dsq hole_dist_sq && dlt hole_dist_sq obst_dist_sq then
          mkAoo true (mkOcc (dmul (prob_occ base) (dsub (dofZ 1) (ddiv dsq hole_dist_sq))) (est_quality occ)) (send beam) q
        else mkAoo false occ (send beam) q).

  Fixpoint free_cells_loop (beam : segment D) (q : D) (base : occup D) (obst_pt : coord) (obst_dist_sq hole_dist_sq : D)
      (pts : list coord) (m : M) : outcome M :=
    match pts with
    | [] => Ok m
    | pt :: pts =>
        o <- free_cell_obs beam q base obst_pt obst_dist_sq hole_dist_sq pt ;;
        m <- map_update m pt o ;;
        free_cells_loop beam q base obst_pt obst_dist_sq hole_dist_sq pts m
    end.

  (** grid_map_scan_adders.h:138-172 (132: the squared limit is computed in the constructor; [pts.back()] of an empty
      vector is UB) *)
  Definition handle_scan_point (m : M) (is_occ : bool) (q : D) (beam : segment D) : outcome M :=
    if dlt (dmul max_usable_range max_usable_range) (length_sq beam) then Ok m
    else
      robot_pt <- world_to_cell scale (sbeg beam) ;;
      obst_pt <- world_to_cell scale (send beam) ;;
      let obst_dist_sq := cdist_sq robot_pt obst_pt in
      let hole := blur_cell_dist beam is_occ in
      let hole_dist_sq := dmul hole hole in
      pts <- world_to_cells scale beam ;;
      match rev pts with
      | [] => UB
      | back :: _ =>
          bnds <- world_cell_bounds scale back ;;
          base <- estimate beam bnds is_occ ;;
          m <- map_update m back (mkAoo is_occ base (send beam) q) ;;
          free_cells_loop beam q base obst_pt obst_dist_sq hole_dist_sq (removelast pts) m
      end.

  (** grid_map_scan_adders.h:66-72: the loop over [pt_i]; the access [points[pt_i]] is unchecked *)
  Fixpoint append_loop (fuel : nat) (tp : trig D) (rp : point D) (points : list (scan_point D)) (scan_quality : D)
      (pt_i last_pt_i : Z) (m : M) : outcome M :=
    if pt_i <=? last_pt_i then
      match fuel with
      | O => OutOfFuel
      | S fuel =>
          match nth_error points (Z.to_nat pt_i) with
          | None => UB
          | Some sp =>
              wp <- sp_move_origin_tp datan2 rp tp sp ;;
              q <- omqe_quality points pt_i ;;
              m <- handle_scan_point m (sp_occ sp) (dmul scan_quality q) (mkSegment rp wp) ;;
              append_loop fuel tp rp points scan_quality (pt_i + 1) last_pt_i m
          end
      end
    else Ok m.

  (** grid_map_scan_adders.h:54-75; [scan_margin] is a double: [points.size() - scan_margin - 1] is computed in
      double and converted to size_t.  [trig_of theta] is the scan's provider after set_base_angle(theta). *)
  Definition append_scan (trig_of : D -> trig D) (m : M) (p : pose D) (points : list (scan_point D))
      (scan_quality scan_margin : D) : outcome M :=
    match points with
    | [] => Ok m
    | _ =>
        last_pt_i <- to_size (dtrunc (dsub (dsub (dofZ (Z.of_nat (length points))) scan_margin) (dofZ 1))) ;;
        pt_i <- to_size (dtrunc scan_margin) ;;
        append_loop (length points) (trig_of (pth p)) (pose_point p) points scan_quality pt_i last_pt_i m
    end.
End ScanAdder.
