(** Model of src/utils/data_generation/{grid_map_patcher,map_primitives,laser_scan_generator}.h. *)
From Coq Require Import Ascii String ZArith List Bool.
From Verif.Base Require Import Outcome Num.
From Verif.Model Require Import MathUtils Geometry Sensor Grid Cells AreaEstimator Properties.
Import ListNotations.
Local Open Scope Z_scope.
Local Open Scope outcome_scope.

(** ** GridMapPatcher (overflow of the int counters is not modelled) *)
Section Patcher.
  Context {D : Type} {ops : DOps D}.
  (** grid_map_patcher.h:15-20 *)
  Record patch := mkPatch { p_coord : coord; p_occ : occup D }.
  (** grid_map_patcher.h:41-43 *)
  Definition char_to_occupancy (ch : ascii) : occup D := mkOcc (if Ascii.eqb ch " " then dofZ 0 else dofZ 1) (dofZ 1).
  (** grid_map_patcher.h:74-77: [n] patches to the right; the patches and the next coordinate *)
  Fixpoint char_patches (n : nat) (wc : coord) (o : occup D) : list patch * coord :=
    match n with
    | O => ([], wc)
    | S n => let '(l, wc') := char_patches n (cx wc + 1, cy wc) o in (mkPatch wc o :: l, wc')
    end.
  (** grid_map_patcher.h:72-78 *)
  Fixpoint row_patches (w_scale : nat) (row : str) (wc : coord) : list patch * coord :=
    match row with
    | [] => ([], wc)
    | ch :: row =>
        let '(l, wc) := char_patches w_scale wc (char_to_occupancy ch) in
        let '(l', wc) := row_patches w_scale row wc in
        (l ++ l', wc)
    end.
  (** grid_map_patcher.h:70-80: the row is drawn [n] times *)
  Fixpoint rows_patches (n w_scale : nat) (row : str) (wc : coord) : list patch * coord :=
    match n with
    | O => ([], wc)
    | S n =>
        let '(l, wc) := row_patches w_scale row (0, cy wc) in
        let '(l', wc) := rows_patches n w_scale row (cx wc, cy wc - 1) in
        (l ++ l', wc)
    end.
  (** grid_map_patcher.h:64-84: std::getline gives the lines of the stream; an empty one ends the raster.  The patches, the
      raster's width and height. *)
  Fixpoint raster_patches (w_scale h_scale : nat) (lines : list str) (wc : coord) (w h : Z) : list patch * Z * Z :=
    match lines with
    | [] | [] :: _ => ([], w, h)
    | row :: lines =>
        let '(l, wc) := rows_patches h_scale w_scale row wc in
        let '(l', w, h) := raster_patches w_scale h_scale lines wc (Z.max w (Z.of_nat (List.length row))) (h + 1) in
        (l ++ l', w, h)
    end.
  (** grid_map_patcher.h:57-86 *)
  Definition patches_by_text_raster (raster : str) (w_scale h_scale : Z) : list patch * Z * Z :=
    raster_patches (Z.to_nat w_scale) (Z.to_nat h_scale) (getlines raster) (0, 0) 0 0.
  (** grid_map_patcher.h:88-98: [update] is the map's; its argument is the observation *)
  Context {M : Type} (update : M -> coord -> aoo D -> outcome M).
  Definition patch_aoo (o : occup D) : aoo D := mkAoo true o (dofZ 0, dofZ 0) (dofZ 1).
  Fixpoint apply_patches (m : M) (offset : coord) (l : list patch) : outcome M :=
    match l with
    | [] => Ok m
    | p :: l => m <- update m (coord_add (p_coord p) offset) (patch_aoo (p_occ p)) ;; apply_patches m offset l
    end.
  (** grid_map_patcher.h:26-37, 45-55; [None]: align automatically (the quotients truncate) *)
  Definition apply_text_raster (m : M) (raster : str) (dst_offset : option coord) (w_zoom h_zoom : Z) : outcome M :=
    _ <- assert_ ((0 <? w_zoom) && (0 <? h_zoom)) ;;
    let '(patches, w, h) := patches_by_text_raster raster w_zoom h_zoom in
    let offset := match dst_offset with Some o => o | None => (Z.quot (- w_zoom * w) 2, Z.quot (h_zoom * h) 2) end in
    apply_patches m offset patches.
End Patcher.
Arguments patch D : clear implicits.

(** ** CecumTextRasterMapPrimitive: map_primitives.h:64-154 *)
Inductive bound_position := BLeft | BRight | BTop | BBot.
Definition occ_marker : ascii := "+"%char.
Definition free_marker : ascii := " "%char.
(** map_primitives.h:109-121: one row *)
Definition horiz_row (w h : nat) (bnd : bound_position) (row_i : nat) : str :=
  if ((row_i =? 0)%nat && match bnd with BTop => true | _ => false end) ||
     ((row_i =? h - 1)%nat && match bnd with BBot => true | _ => false end)
  then repeat occ_marker w ++ [nl]
  else occ_marker :: map (fun col_i => if (col_i =? w - 1)%nat then occ_marker else free_marker) (seq 1 (w - 1)) ++ [nl].
(** map_primitives.h:104-124 *)
Definition horiz_cecum (w h : nat) (bnd : bound_position) : str := flat_map (horiz_row w h bnd) (seq 0 h).
(** map_primitives.h:132-144: one row of the loop *)
Definition vert_row (w h : nat) (bnd : bound_position) (row_i : nat) : str :=
  if (row_i =? h - 1)%nat then repeat occ_marker w
  else
    map (fun col_i =>
      if (w =? 1)%nat || ((col_i =? 0)%nat && match bnd with BLeft => true | _ => false end) ||
         ((col_i =? w - 1)%nat && match bnd with BRight => true | _ => false end)
      then occ_marker else free_marker) (seq 0 w) ++ [nl].
(** map_primitives.h:126-148 *)
Definition vert_cecum (w h : nat) (bnd : bound_position) : str :=
  repeat occ_marker w ++ [nl] ++ flat_map (vert_row w h bnd) (seq 1 (h - 1)) ++ [nl].
(** map_primitives.h:68-80, 102 *)
Definition cecum_raster (w h : Z) (bnd : bound_position) : outcome str :=
  _ <- assert_ ((0 <? w) && (0 <? h)) ;;
  Ok (match bnd with
      | BTop | BBot => horiz_cecum (Z.to_nat w) (Z.to_nat h) bnd
      | BLeft | BRight => vert_cecum (Z.to_nat w) (Z.to_nat h) bnd
      end).
(** map_primitives.h:84-99 *)
Definition cecum_free_space {D} {ops : DOps D} (w h : Z) (bnd : bound_position) : outcome (list (rect D)) :=
  r <- (if (h <=? 2) || (w <=? 2) then mk_rect (dofZ 0) (dofZ 0) (dofZ 0) (dofZ 0)
        else match bnd with
             | BTop => mk_rect (dofZ (- h + 1)) (dofZ 0) (dofZ 1) (dofZ (w - 1))
             | BBot => mk_rect (dofZ (- h + 2)) (dofZ 1) (dofZ 1) (dofZ (w - 1))
             | BLeft => mk_rect (dofZ (- h + 2)) (dofZ 0) (dofZ 1) (dofZ w)
             | BRight => mk_rect (dofZ (- h + 2)) (dofZ 0) (dofZ 0) (dofZ (w - 1))
             end) ;;
  Ok [r].

(** ** LaserScanGenerator *)
Section LaserScanGenerator.
  Context {D : Type} {ops : DOps D}.
  Variables (dcos dsin : D -> D) (datan2 : D -> D -> D) (mpi : D).
  (** laser_scan_generator.h:12-23 *)
  Record ls_params := mkLSP { ls_max_dist : D; ls_inc : D; ls_hsector : D }.
  (** the map: its scale and the occupancy of a cell ([double] of a GridCell: its probability) *)
  Variables (scale : D) (occ : coord -> outcome D).
  Variables (lsp : ls_params) (pose : pose D) (occ_threshold : D).
  (** laser_scan_generator.h:52-77: the cells of one beam [ids]; at most one point *)
  Fixpoint beam_point (a : D) (beam_dir : point D) (ids : list coord) : outcome (option (scan_point D)) :=
    match ids with
    | [] => Ok None
    | id :: ids =>
        o <- occ id ;;
        if dlt o occ_threshold then beam_point a beam_dir ids
        else
          b <- world_cell_bounds scale id ;;
          inters <- ray_intersections b (mkRay (pose_point pose) beam_dir) ;;
          match inters with
          | [_] => beam_point a beam_dir ids
          | [i; j] =>
              let obst := (ddiv (dadd (ptx (i_pt i)) (ptx (i_pt j))) (dofZ 2), ddiv (dadd (pty (i_pt i)) (pty (i_pt j))) (dofZ 2)) in
              let dx := dsub (px pose) (ptx obst) in
              let dy := dsub (py pose) (pty obst) in
              let range := dsqrt (dadd (dmul dx dx) (dmul dy dy)) in
              let sp := sp_make_polar range a true in
              sp_area_id <- world_to_cell scale (sp_move_origin_angle dcos dsin datan2 (pose_point pose) (pth pose) sp) ;;
              _ <- assert_ (coord_eqb id sp_area_id) ;;
              Ok (Some sp)
          | _ => Abort
          end
    end.
  (** laser_scan_generator.h:49-51 *)
  Definition beam (a : D) : outcome (option (scan_point D)) :=
    let beam_dir := (dmul (ls_max_dist lsp) (dcos (dadd a (pth pose))), dmul (ls_max_dist lsp) (dsin (dadd a (pth pose)))) in
    ids <- world_to_cells scale (mkSegment (pose_point pose) (dadd (px pose) (ptx beam_dir), dadd (py pose) (pty beam_dir))) ;;
    beam_point a beam_dir ids.
  (** laser_scan_generator.h:47-78 *)
  Fixpoint beams (fuel : nat) (a : D) : outcome (list (scan_point D)) :=
    if dle a (ls_hsector lsp) then
      if dle (dmul (dofZ 2) mpi) (dadd (ls_hsector lsp) a) then Ok []
      else
        match fuel with
        | O => OutOfFuel
        | S fuel =>
            p <- beam a ;;
            rest <- beams fuel (dadd a (ls_inc lsp)) ;;
            Ok (match p with Some p => p :: rest | None => rest end)
        end
    else Ok [].
  (** laser_scan_generator.h:35-80 *)
  Definition laser_scan_2D (fuel : nat) : outcome (list (scan_point D)) :=
    c <- world_to_cell scale (pose_point pose) ;;
    _ <- assert_ (negb (are_equal (px pose) (dmul (dofZ (cx c)) scale)) && negb (are_equal (py pose) (dmul (dofZ (cy c)) scale))) ;;
    beams fuel (dopp (ls_hsector lsp)).
End LaserScanGenerator.
Arguments ls_params D : clear implicits.
