(** C01-C04: discrete lines, cells of the plane, rasterisation. *)
From Coq Require Import Reals ZArith List Lia Lra Bool.
From Flocq Require Import Core.
From Verif.Base Require Import Outcome Num F64Facts.
From Verif.Model Require Import MathUtils Geometry Grid.
From Verif.Spec Require Import GeometrySpec GridSpec.
From Verif.Proofs Require Import BresenhamProofs GridProofs GridNumProofs RasterProofs.
Import ListNotations.

(** C01 *)
Theorem C01_discrete_segment_is_digital_line : forall beg end_ : Z * Z,
  exists l, discrete_segment beg end_ = Ok l /\ digital_line beg end_ l.
Proof. exact discrete_segment_line. Qed.
Print Assumptions C01_discrete_segment_is_digital_line.

Example C01_case : discrete_segment (1, 2)%Z (-4, 5)%Z =
  Ok [(1, 2); (0, 3); (-1, 3); (-2, 4); (-3, 4); (-4, 5)]%Z.
Proof. vm_compute. reflexivity. Qed.

(** C02: a point is mapped to [c] iff it lies in the half-open square of [c] (and [c] fits in int);
    otherwise the conversion is undefined. *)
Theorem C02_world_to_cell_is_containing_square : forall (s : R) (p : point R) (c : coord),
  (0 < s)%R -> (world_to_cell s p = Ok c <-> int_coord c /\ in_cell s c p).
Proof. exact world_to_cell_spec_R. Qed.
Print Assumptions C02_world_to_cell_is_containing_square.

Theorem C02_world_to_cell_defined_or_ub : forall (s : R) (p : point R), (0 < s)%R ->
  (exists c, world_to_cell s p = Ok c) \/ world_to_cell s p = UB.
Proof. exact world_to_cell_R_total. Qed.
Print Assumptions C02_world_to_cell_defined_or_ub.

Theorem C02_squares_disjoint : forall (s : R) (p : R * R) (c c' : Z * Z), (0 < s)%R ->
  in_cell s c p -> in_cell s c' p -> c = c'.
Proof. exact in_cell_unique. Qed.
Print Assumptions C02_squares_disjoint.

Theorem C02_reported_bounds : forall (s : R) (c : coord), (0 < s)%R ->
  world_cell_bounds s c =
  Ok (mkRect (s * IZR (snd c)) (s * (IZR (snd c) + 1)) (s * IZR (fst c)) (s * (IZR (fst c) + 1)))%R.
Proof. exact world_cell_bounds_R. Qed.
Print Assumptions C02_reported_bounds.

Theorem C02_center_roundtrip : forall (s : R) (c : coord), (0 < s)%R ->
  in_int (fst c) = true -> in_int (snd c) = true -> world_to_cell s (cell_to_world s c) = Ok c.
Proof. exact world_to_cell_center_R. Qed.
Print Assumptions C02_center_roundtrip.

(** the same round trip in IEEE double arithmetic, for every int cell and any sane scale *)
Theorem C02_center_roundtrip_binary64 : forall (s : F64) (c : coord), F_fin s = true ->
  (bpow radix2 (-900) <= F2R64 s <= bpow radix2 900)%R ->
  in_int (fst c) = true -> in_int (snd c) = true ->
  world_to_cell s (cell_to_world s c) = Ok c.
Proof. exact world_to_cell_center_F64. Qed.
Print Assumptions C02_center_roundtrip_binary64.

Example C02_case_binary64 :
  world_to_cell (dlit 1 10 : F64) (cell_to_world (dlit 1 10) (-37, 12345678)%Z) = Ok (-37, 12345678)%Z.
Proof. vm_compute. reflexivity. Qed.
Example C02_case_int : int_coord (3, -7)%Z /\ in_cell (1/10) (3, -7)%Z (0.35, -0.65)%R.
Proof. unfold int_coord, in_cell; cbn. split; [lia|lra]. Qed.

(** C03 *)
Theorem C03_segment_cells_are_path : forall (s : R) (sg : segment R) (b e : coord), (0 < s)%R ->
  world_to_cell s (sbeg sg) = Ok b -> world_to_cell s (send sg) = Ok e ->
  exists l, world_to_cells s sg = Ok l /\ cell_path b e l.
Proof. exact world_to_cells_path_R. Qed.
Print Assumptions C03_segment_cells_are_path.

Theorem C03_segment_cells_are_path_binary64 : forall (s : F64) (sg : segment F64) (b e : coord),
  F_fin s = true -> (0 < F2R64 s)%R -> fin_point (sbeg sg) -> fin_point (send sg) ->
  world_to_cell s (sbeg sg) = Ok b -> world_to_cell s (send sg) = Ok e ->
  exists l, world_to_cells s sg = Ok l /\ cell_path b e l.
Proof. exact world_to_cells_path_F64. Qed.
Print Assumptions C03_segment_cells_are_path_binary64.

Example C03_case_binary64 :
  let p (a b : Z) : point F64 := (dlit a 10, dlit b 10) in
  world_to_cell (dlit 1 2 : F64) (p 1 1)%Z = Ok (0, 0)%Z /\
  world_to_cell (dlit 1 2 : F64) (p (-25) 12)%Z = Ok (-5, 2)%Z /\
  world_to_cells (dlit 1 2 : F64) (mkSegment (p 1 1) (p (-25) 12))%Z =
    Ok [(0, 0); (-1, 0); (-2, 0); (-2, 1); (-3, 1); (-4, 1); (-5, 1); (-5, 2)]%Z.
Proof. vm_compute. auto. Qed.

(** C04 *)
Theorem C04_raster_enumerates_box : forall (lb rt : coord) fuel, (box_cells lb rt <= fuel)%nat ->
  exists l, raster_to_vector fuel (raster_start lb rt) = Ok l /\ enumerates_box lb rt l.
Proof. exact raster_to_vector_spec. Qed.
Print Assumptions C04_raster_enumerates_box.

Theorem C04_raster_is_exactly_the_covered_cells :
  forall (w h : Z) (origin : coord) (s : R) (r : rect R) (lb rt : coord), (0 < s)%R ->
  (left r < right r)%R -> (bot r < top r)%R ->
  world_to_cell s (left r, bot r) = Ok lb -> world_to_cell s (right r, top r) = Ok rt ->
  exists st, raster_rect w h origin s r true = Ok st /\
    forall fuel, (box_cells lb rt <= fuel)%nat ->
    exists l, raster_to_vector fuel st = Ok l /\ NoDup l /\
      forall c, In c l <-> cell_meets s c (bot r) (top r) (left r) (right r).
Proof. exact raster_rect_R. Qed.
Print Assumptions C04_raster_is_exactly_the_covered_cells.

Theorem C04_zero_area_is_one_cell :
  forall (w h : Z) (origin : coord) (s : R) (r : rect R) ib (c : coord), (0 < s)%R ->
  rect_area r = 0%R -> world_to_cell s (left r, bot r) = Ok c ->
  exists st, raster_rect w h origin s r ib = Ok st /\
    forall fuel, (1 <= fuel)%nat -> raster_to_vector fuel st = Ok [c].
Proof. exact raster_empty_rect_R. Qed.
Print Assumptions C04_zero_area_is_one_cell.

Theorem C04_infinite_area_is_whole_grid :
  forall {D} {ops : DOps D} (w h : Z) (origin : coord) (s : D) (r : rect D) ib,
  dispinf (rect_area r) = true -> deq (rect_area r) (dofZ 0) = false ->
  exists st, raster_rect w h origin s r ib = Ok st /\
    forall fuel, (Z.to_nat w * Z.to_nat h <= fuel)%nat ->
    exists l, raster_to_vector fuel st = Ok l /\ NoDup l /\
      forall c, In c l <-> has_internal_cell w h (external2internal origin c) = true.
Proof. exact @raster_infinite. Qed.
Print Assumptions C04_infinite_area_is_whole_grid.

Theorem C04_cell_bounds_without_border_is_that_cell :
  forall (w h : Z) (origin : coord) (s : R) (c : coord) (r : rect R),
  (1 / 1000000000 < s)%R -> int_coord c -> world_cell_bounds s c = Ok r ->
  exists st, raster_rect w h origin s r false = Ok st /\
    forall fuel, (1 <= fuel)%nat -> raster_to_vector fuel st = Ok [c].
Proof. exact raster_cell_bounds_R. Qed.
Print Assumptions C04_cell_bounds_without_border_is_that_cell.

Example C04_case : raster_to_vector 6 (raster_start (-1, 2) (0, 4))%Z =
  Ok [(-1, 2); (-1, 3); (-1, 4); (0, 2); (0, 3); (0, 4)]%Z.
Proof. vm_compute. reflexivity. Qed.
Example C04_case_infinite : let inf := (ddiv (dofZ 1) (dofZ 0)) : F64 in
  let r := mkRect (dopp inf) inf (dopp inf) inf in
  dispinf (rect_area r) = true /\ deq (rect_area r) (dofZ 0) = false.
Proof. vm_compute. auto. Qed.
