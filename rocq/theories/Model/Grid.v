(** Model of src/core/maps/regular_squares_grid.h and src/core/maps/grid_rasterization.h. *)
From Coq Require Import ZArith List Bool.
From Verif.Base Require Import Outcome Num.
From Verif.Model Require Import MathUtils Geometry.
Import ListNotations.
Local Open Scope Z_scope.
Local Open Scope outcome_scope.

(** regular_squares_grid.h:150-153 (fields); the scale is passed separately below *)
Record grid (D : Type) := mkGrid { gwidth : Z; gheight : Z; gscale : D }.
Arguments mkGrid {D}. Arguments gwidth {D}. Arguments gheight {D}. Arguments gscale {D}.

(** regular_squares_grid.h:120-122 [origin()] ([int] division truncates) *)
Definition default_origin (w h : Z) : coord := (Z.quot w 2, Z.quot h 2).
(** regular_squares_grid.h:134-136 *)
Definition has_internal_cell (w h : Z) (c : coord) : bool :=
  (0 <=? cx c) && (cx c <? w) && ((0 <=? cy c) && (cy c <? h)).
(** regular_squares_grid.h:128-130 *)
Definition internal2external (origin c : coord) : coord := coord_sub c origin.
(** regular_squares_grid.h:141-143 *)
Definition external2internal (origin c : coord) : coord := coord_add c origin.

Section Grid.
  Context {D : Type} {ops : DOps D}.

  (** regular_squares_grid.h:48-53 (and 40-46 with [scale()]): assert on +infinity, floor, cast to int *)
  Definition world_to_cell (scale : D) (p : point D) : outcome coord :=
    _ <- assert_ (negb (dispinf (ptx p)) && negb (dispinf (pty p))) ;;
    x <- floor_int (ddiv (ptx p) scale) ;;
    y <- floor_int (ddiv (pty p) scale) ;;
    Ok (x, y).

  (** regular_squares_grid.h:103-105; [0.5] is exact *)
  Definition cell_to_world (scale : D) (c : coord) : point D :=
    (dmul scale (dadd (dofZ (cx c)) (dlit 1 2)), dmul scale (dadd (dofZ (cy c)) (dlit 1 2))).

  (** regular_squares_grid.h:108-118 for a finite scale *)
  Definition world_cell_bounds (scale : D) (c : coord) : outcome (rect D) :=
    mk_rect (dmul scale (dofZ (cy c))) (dmul scale (dofZ (cy c + 1)))
            (dmul scale (dofZ (cx c))) (dmul scale (dofZ (cx c + 1))).

  (** regular_squares_grid.h:77-99: the walk.  [cells] is kept reversed; [n] is [cells.size()] after the
      push_back of this iteration. *)
  Fixpoint w2c_loop (fuel : nat) (beg_cell end_ : coord) (cells_nm inc_x inc_y : Z)
      (e_x_inc e_y_inc : D) (pnt : coord) (e : D) (n : Z) (cells : list coord)
      : outcome (list coord) :=
    match fuel with
    | O => OutOfFuel
    | S fuel =>
        let cells := pnt :: cells in                                          (* 78 *)
        let n := n + 1 in
        if coord_eqb pnt end_ then Ok (rev cells)                             (* 79, 100 *)
        else if cells_nm <? n then discrete_segment beg_cell end_             (* 80-82 *)
        else
          let e_x := dadd e e_x_inc in                                        (* 84 *)
          let e_y := dadd e e_y_inc in
          let abs_err_diff := dsub (dabs e_y) (dabs e_x) in                   (* 85 *)
          if are_equal abs_err_diff (dofZ 0) then                             (* 86-91 *)
            let pnt := if cx pnt =? cx end_ then (cx pnt, cy pnt + inc_y)
                       else if cy pnt =? cy end_ then (cx pnt + inc_x, cy pnt)
                       else (cx pnt + inc_x, cy pnt + inc_y) in
            w2c_loop fuel beg_cell end_ cells_nm inc_x inc_y e_x_inc e_y_inc pnt (dofZ 0) n cells
          else if dlt (dofZ 0) abs_err_diff then                              (* 92-94 *)
            w2c_loop fuel beg_cell end_ cells_nm inc_x inc_y e_x_inc e_y_inc
                     (cx pnt + inc_x, cy pnt) e_x n cells
          else                                                                (* 95-98 *)
            w2c_loop fuel beg_cell end_ cells_nm inc_x inc_y e_x_inc e_y_inc
                     (cx pnt, cy pnt + inc_y) e_y n cells
    end.

  (** regular_squares_grid.h:56-101 [world_to_cells(segment)].
      [(pnt.x + 0.5) * m_per_cell]: int + double; [inc_x * m_per_cell * d_y] associates to the left. *)
  Definition world_to_cells (scale : D) (s : segment D) : outcome (list coord) :=
    let d_x := dsub (ptx (send s)) (ptx (sbeg s)) in
    let d_y := dsub (pty (send s)) (pty (sbeg s)) in
    let inc_x := if dlt (dofZ 0) d_x then 1 else -1 in
    let inc_y := if dlt (dofZ 0) d_y then 1 else -1 in
    pnt <- world_to_cell scale (sbeg s) ;;
    end_ <- world_to_cell scale (send s) ;;
    let cells_nm := Z.abs (cx end_ - cx pnt) + Z.abs (cy end_ - cy pnt) + 1 in
    let mid_x := dmul (dadd (dofZ (cx pnt)) (dlit 1 2)) scale in
    let mid_y := dmul (dadd (dofZ (cy pnt)) (dlit 1 2)) scale in
    let mid_cell_seg_y := dadd (dmul d_x (pty (sbeg s))) (dmul (dsub mid_x (ptx (sbeg s))) d_y) in
    let e := dsub mid_cell_seg_y (dmul mid_y d_x) in
    let e_x_inc := dmul (dmul (dofZ inc_x) scale) d_y in
    let e_y_inc := dmul (dmul (dofZ (- inc_y)) scale) d_x in
    w2c_loop (Z.to_nat (cells_nm + 1)) pnt end_ cells_nm inc_x inc_y e_x_inc e_y_inc pnt e 0 [].
End Grid.

(** grid_rasterization.h:72-75 (fields of [GridRasterizedRectangle]) *)
Record raster := mkRaster { r_lb : coord; r_rt : coord; r_x : Z; r_y : Z }.

(** grid_rasterization.h:46-47 *)
Definition raster_start (lb rt : coord) : raster := mkRaster lb rt (cx lb) (cy lb).

(** grid_rasterization.h:50-54 *)
Definition raster_has_next (r : raster) : bool := (r_x r <=? cx (r_rt r)) && (r_y r <=? cy (r_rt r)).

(** grid_rasterization.h:56-64 *)
Definition raster_next (r : raster) : coord * raster :=
  let area_id := (r_x r, r_y r) in
  let y := r_y r + 1 in
  if cy (r_rt r) <? y
  then (area_id, mkRaster (r_lb r) (r_rt r) (r_x r + 1) (cy (r_lb r)))
  else (area_id, mkRaster (r_lb r) (r_rt r) (r_x r) y).

(** grid_rasterization.h:66-70 [to_vector] *)
Fixpoint raster_to_vector (fuel : nat) (r : raster) : outcome (list coord) :=
  if raster_has_next r then
    match fuel with
    | O => OutOfFuel
    | S fuel => let '(c, r') := raster_next r in
                l <- raster_to_vector fuel r' ;; Ok (c :: l)
    end
  else Ok [].

Section RasterCtor.
  Context {D : Type} {ops : DOps D}.
  (** grid_rasterization.h:26-48: constructor.  [origin] is the grid's [origin()] (virtual). *)
  Definition raster_rect (w h : Z) (origin : coord) (scale : D) (r : rect D) (include_border : bool)
      : outcome raster :=
    let offset := if include_border then dofZ 0 else dlit 1 1000000000 in
    let area_is_infin := dispinf (rect_area r) in
    let area_is_empty := deq (rect_area r) (dofZ 0) in
    if negb area_is_empty && negb area_is_infin then
      lb <- world_to_cell scale (dadd (left r) offset, dadd (bot r) offset) ;;
      rt <- world_to_cell scale (dsub (right r) offset, dsub (top r) offset) ;;
      Ok (raster_start lb rt)
    else if area_is_empty then
      c <- world_to_cell scale (left r, bot r) ;;
      Ok (raster_start c c)
    else
      Ok (raster_start (internal2external origin (0, 0))
                       (internal2external origin (w - 1, h - 1))).
End RasterCtor.
