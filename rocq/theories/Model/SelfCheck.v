(** Model of M3RSMRescalableGridMap::validate, src/core/scan_matchers/m3rsm_engine.h:37-83, which sm_runner.cpp:78 calls after
    loading a map. *)
From Coq Require Import ZArith List Bool.
From Verif.Base Require Import Outcome Num.
From Verif.Model Require Import MathUtils Geometry Grid Pyramid.
Import ListNotations.
Local Open Scope Z_scope.
Local Open Scope outcome_scope.

Section SelfCheck.
  Context {D C : Type} {ops : DOps D}.
  Variable proto : C.                                       (* cell_prototype() *)
  Variable infinity lowest : D.                             (* std::numeric_limits<double>::infinity(), lowest() *)
  Variable read : level D C -> coord -> outcome C.          (* operator[] of the back map *)
  Variable impact : C -> D.                                 (* estimate_spe_obstacle_impact, lines 67-69 *)
  Variable is_unknown : C -> bool.

  (** regular_squares_grid.h:108-118 with the infinite scale *)
  Definition cell_bounds (scale : D) (c : coord) : outcome (rect D) :=
    if deq scale infinity then mk_rect (dopp infinity) infinity (dopp infinity) infinity
    else world_cell_bounds scale c.

  (** m3rsm_engine.h:74-77; std::max(a, b) is b if a < b, else a *)
  Fixpoint max_known (l : level D C) (cs : list coord) (m : D) : outcome D :=
    match cs with
    | [] => Ok m
    | c :: cs => v <- read l c ;; max_known l cs (if is_unknown v then m else dmax (impact v) m)
    end.
  (** m3rsm_engine.h:71-83 *)
  Definition estimate_max_spe_impact (l : level D C) (area : rect D) : outcome D :=
    cs <- level_raster l area ;;
    m <- max_known l cs lowest ;;
    Ok (if are_equal m lowest then impact proto else m).
  (** m3rsm_engine.h:44-54: one cell of a coarser map *)
  Definition check_cell (finest l : level D C) (c : coord) : outcome bool :=
    area <- cell_bounds (lv_scale l) c ;;
    m <- estimate_max_spe_impact finest area ;;
    v <- read l c ;;
    Ok (less_or_equal m (impact v)).
  Fixpoint check_cells (finest l : level D C) (cs : list coord) : outcome bool :=
    match cs with
    | [] => Ok true
    | c :: cs => b <- check_cell finest l c ;; if b then check_cells finest l cs else Ok false
    end.
  (** m3rsm_engine.h:41-44: the cells of a map in the order of the two loops *)
  Definition map_cells (l : level D C) : list coord :=
    flat_map (fun x => map (fun y => internal2external (lv_origin l) (Z.of_nat x, Z.of_nat y)) (seq 0 (Z.to_nat (lv_h l)))) (seq 0 (Z.to_nat (lv_w l))).
  (** m3rsm_engine.h:39-58 *)
  Fixpoint check_levels (finest : level D C) (ls : list (level D C)) : outcome bool :=
    match ls with
    | [] => Ok true
    | l :: ls => b <- check_cells finest l (map_cells l) ;; if b then check_levels finest ls else Ok false
    end.
  (** m3rsm_engine.h:37-59; coarsest_scale_id() may add levels to the (mutable) cache, so the map after the call is a result too *)
  Definition validate (p : pyramid D C) : outcome (bool * pyramid D C) :=
    match nth_error (py_levels p) 0 with
    | None => UB
    | Some finest =>
        ls <- ensure_continuous proto (py_levels p) ;;
        b <- check_levels finest (tl ls) ;;
        Ok (b, mkPyr ls (py_active p))
    end.
End SelfCheck.

(** operator[] of the unbounded maps: the prototype outside (plain_grid_map.h:51-59, lazy_tiled_grid_map.h) *)
Definition read_unbounded {D C} (l : level D C) (c : coord) : outcome C := Ok (lv_cells l c).
(** operator[] of the bounded plain map: asserts that the map has the cell (plain_grid_map.h:22-26) *)
Definition read_bounded {D C} (l : level D C) (c : coord) : outcome C :=
  _ <- assert_ (has_internal_cell (lv_w l) (lv_h l) (external2internal (lv_origin l) c)) ;; Ok (lv_cells l c).
