(** The parts of the SLAM put together: the cells, maps, occupancy estimators and observation quality estimators the
    configuration can name (src/utils/init_occupancy_mapping.h:42-146, src/slams/credibilist/init_slam.h,
    src/slams/gmapping/init_gmapping.h), the scan adder over them, and the two worlds over that. *)
From Coq Require Import ZArith List Bool.
From Verif.Base Require Import Outcome Num.
From Verif.Model Require Import MathUtils Geometry Grid PlainMap LazyMap Cells Sensor ScanAdder Histogram AreaEstimator Pyramid Config.
Import ListNotations.
Local Open Scope Z_scope.
Local Open Scope outcome_scope.

Section Whole.
  Context {D : Type} {ops : DOps D}.

  (** a GridCell of any class: grid_cell.h, naive_grid_cells.h, tbm_grid_cells.h, credibilist/grid_cell.h,
      gmapping_grid_cell.h *)
  Inductive acell :=
  | CAffine (c : gcell D) | CMean (c : mcell D) | CConsistent (c : tcell D) | CEven (c : tcell D) | CCredibilist (c : tcell D)
  | CGmapping (c : gmcell D).
  (** the virtual [operator+=].  Simplification: a GMapping cell observed 2^31 - 1 times keeps its value (in the code its
      counter overflows: C16). *)
  Definition acell_upd (c : acell) (a : aoo D) : acell :=
    match c with
    | CAffine c => CAffine (affine_upd c a)
    | CMean c => CMean (mean_upd c a)
    | CConsistent c => CConsistent (tcell_upd occ_consistent c a)
    | CEven c => CEven (tcell_upd occ_unknown_even c a)
    | CCredibilist c => CCredibilist (tcell_upd occ_unknown_even c a)
    | CGmapping c => CGmapping (match gm_upd c a with Ok c' => c' | _ => c end)
    end.
  (** grid_cell.h:18-21, 55-56: the stored occupancy and the flag of any class *)
  Definition acell_base (c : acell) : gcell D :=
    match c with
    | CAffine c => c | CMean c => m_cell c | CConsistent c | CEven c | CCredibilist c => tc_cell c | CGmapping c => g_cell c
    end.
  Definition acell_prob (c : acell) : D := c_prob (acell_base c).
  (** init_occupancy_mapping.h:94-111; credibilist/init_slam.h and init_gmapping.h create their own class *)
  Definition new_cell (m : area_model) : acell :=
    match m with
    | TbmConsistent => CConsistent tcell_new
    | TbmUnknownEven => CEven tcell_new
    | AffineQuality => CAffine affine_new
    | MeanProbability => CMean mean_new
    end.

  (** a GridMap of any class (the lazily tiled ones by their index in the program's heap of maps, bounded or not), or the
      rescalable map over one *)
  Inductive amap :=
  | MPlain (m : pmap acell) | MUnbounded (m : pmap acell) | MLazy (s : lstate acell) (i : nat)
  | MRescalable (p : pyramid D acell).
  (** what the rescalable map needs: its prototype, the growth of its back maps, the impact of a cell (m3rsm_engine.h:67-69)
      and a bound on its levels *)
  Variables (proto : acell) (infinity : D) (grow : Z -> Z -> coord -> coord -> Z * Z * coord).
  Variables (impact : acell -> D) (levels_bound : nat).
  (** GridMap::update: grid_map.h:41-46, plain_grid_map.h:58-62, lazy_tiled_grid_map.h:35-39, 129-133,
      rescalable_caching_grid_map.h:100-105 *)
  Definition amap_update (m : amap) (c : coord) (a : aoo D) : outcome amap :=
    match m with
    | MPlain m => m <- plain_update acell_upd m c a ;; Ok (MPlain m)
    | MUnbounded m => m <- unb_update acell_upd m c a ;; Ok (MUnbounded m)
    | MLazy s i => s <- lstep Tile_Size_Bits acell_upd s (LUpdate i c a) ;; Ok (MLazy s i)
    | MRescalable p =>
        p <- m3_write proto grow impact (fun x => c_unknown (acell_base x)) levels_bound p c (fun x => acell_upd x a) ;; Ok (MRescalable p)
    end.
  (** operator[] const: plain_grid_map.h:27-31, 69-73, lazy_tiled_grid_map.h:47-49, 140-147,
      rescalable_caching_grid_map.h:116-118 (the active level) *)
  Definition amap_get (m : amap) (c : coord) : outcome acell :=
    match m with
    | MPlain m => plain_get m c
    | MUnbounded m => unb_get m c
    | MLazy s i => lread Tile_Size_Bits s i c
    | MRescalable p => match nth_error (py_levels p) (py_active p) with Some l => Ok (lv_cells l c) | None => UB end
    end.
  (** new maps: the constructors *)
  Definition new_amap (k : map_kind) (w h : Z) : outcome amap :=
    match k with
    | PlainKind => Ok (MPlain (pmap_new proto w h))
    | UnboundedPlainKind => Ok (MUnbounded (pmap_new proto w h))
    | LazyKind => s <- lstep Tile_Size_Bits acell_upd lempty (LCreate false proto w h) ;; Ok (MLazy s 0)
    | UnboundedLazyKind => s <- lstep Tile_Size_Bits acell_upd lempty (LCreate true proto w h) ;; Ok (MLazy s 0)
    end.
  Definition new_rescalable (w h : Z) (s : D) : outcome amap := p <- pyramid_new proto infinity w h s ;; Ok (MRescalable p).

  (** const_occupancy_estimator.h:8-12; area_occupancy_estimator.h:20-64 with its default qualities 0.01 and 0.5 and the
      program's static [Shift_Amount] (line 71) as a parameter; Occupancy::invalid() is (NaN, NaN) *)
  Variables (shift_amount nan : D).
  Definition estimate_with (e : occ_estimator (D := D)) (beam : segment D) (c : rect D) (is_occ : bool) : outcome (occup D) :=
    match e with
    | ConstEst occupied empty => Ok (if is_occ then occupied else empty)
    | AreaEst occupied empty =>
        r <- aoe_estimate (mkAoe occupied empty (dlit 1 100) dhalf) shift_amount beam c is_occ ;;
        Ok (match r with Some o => o | None => mkOcc nan nan end)
    end.

  (** grid_map_scan_adders.h:24-43: IdleOMQE; AngleHistogramResiprocalOMQE, whose histogram has 20 columns *)
  Variables (dcos dsin dacos : D -> D) (mpi : D) (datan2 : D -> D -> D).
  Definition omqe_reset (k : omqe) (pts : list (scan_point D)) : outcome (option (hist D)) :=
    match k with
    | IdleOmqe => Ok None
    | AhrOmqe => h <- hist_reset dcos dsin dacos mpi 20 pts ;; Ok (Some h)
    end.
  Definition omqe_quality (h : option (hist D)) (pts : list (scan_point D)) (i : Z) : outcome D :=
    match h with
    | None => Ok (dofZ 1)
    | Some h => ahr_weight mpi h pts (Z.to_nat i)            (* the same code: 34-40 *)
    end.

  (** a configured WallDistanceBlurringScanAdder: grid_map_scan_adders.h:54-75 *)
  Record adder_config := mkAdder { ac_scale : D; ac_est : occ_estimator (D := D); ac_omqe : omqe; ac_range : D; ac_blur : D }.
  (** a scan: its points and its trigonometry provider after set_base_angle *)
  Definition whole_scan : Type := list (scan_point D) * (D -> trig D).
  Definition whole_append (k : adder_config) (m : amap) (p : pose D) (s : whole_scan) (quality margin : D) : outcome amap :=
    match fst s with
    | [] => Ok m
    | _ =>
        h <- omqe_reset (ac_omqe k) (fst s) ;;
        append_scan amap_update (ac_scale k) (estimate_with (ac_est k)) (omqe_quality h) (ac_range k) (ac_blur k) datan2
          (snd s) m p (fst s) quality margin
    end.
End Whole.
Arguments acell D : clear implicits.
Arguments amap D : clear implicits.
Arguments adder_config D : clear implicits.
Arguments whole_scan D : clear implicits.
