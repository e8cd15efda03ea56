(** Model of src/core/maps/rescalable_caching_grid_map.h and of the map class of src/core/scan_matchers/m3rsm_engine.h (17-131).
    A level is its size, its scale and its cells as a function of the external coordinate: that the back maps behave so is the
    subject of other properties (C03-C12). *)
From Coq Require Import ZArith List Bool.
From Verif.Base Require Import Outcome Num.
From Verif.Model Require Import MathUtils Geometry Grid Histogram.
Import ListNotations.
Local Open Scope Z_scope.
Local Open Scope outcome_scope.

Section Pyramid.
  Context {D C : Type} {ops : DOps D}.
  Variable proto : C.                        (* cell_prototype() *)
  Variable infinity : D.                     (* std::numeric_limits<double>::infinity() *)
  (** how the back map's size and origin change when the cell at a coordinate is written: width, height, origin, coordinate *)
  Variable grow : Z -> Z -> coord -> coord -> Z * Z * coord.

  Record level := mkLevel { lv_w : Z; lv_h : Z; lv_origin : coord; lv_scale : D; lv_cells : coord -> C }.
  Record pyramid := mkPyr { py_levels : list level; py_active : nat }.

  (** a new back map: all cells are the prototype *)
  Definition new_level (w h : Z) (s : D) : level := mkLevel w h (default_origin w h) s (fun _ => proto).
  (** back map's update/reset of one cell *)
  Definition write_cell (l : level) (c : coord) (v : C) : level :=
    let '(w, h, o) := grow (lv_w l) (lv_h l) (lv_origin l) c in
    mkLevel w h o (lv_scale l) (fun q => if coord_eqb q c then v else lv_cells l q).

  (** rescalable_caching_grid_map.h:185-193: the levels added, finest first *)
  Fixpoint new_levels (fuel : nat) (w h : Z) (s : D) : outcome (list level) :=
    if (2 <? w) || (2 <? h) then
      match fuel with
      | O => OutOfFuel
      | S fuel =>
          let w := Z.max 2 (Z.quot w 2) in
          let h := Z.max 2 (Z.quot h 2) in
          let s := dmul s (dofZ 2) in
          l <- new_levels fuel w h s ;; Ok (new_level w h s :: l)
      end
    else Ok [].
  (** rescalable_caching_grid_map.h:171-194 *)
  Definition ensure_continuous (ls : list level) : outcome (list level) :=
    if (length ls <? 2)%nat then Ok ls
    else
      let n := (length ls - 2)%nat in
      match nth_error ls n with
      | None => UB
      | Some pc =>
          if (lv_w pc <=? 2) && (lv_h pc <=? 2) then Ok ls
          else
            w <- ge_pow 33 2 (lv_w pc) ;;
            h <- ge_pow 33 2 (lv_h pc) ;;
            l <- new_levels 40 w h (lv_scale pc) ;;
            Ok (firstn (S n) ls ++ l ++ skipn (S n) ls)
      end.
  (** rescalable_caching_grid_map.h:27-42 *)
  Definition pyramid_new (w h : Z) (s : D) : outcome pyramid :=
    ls <- ensure_continuous [new_level w h s; new_level 1 1 infinity] ;;
    Ok (mkPyr ls 0).

  (** rescalable_caching_grid_map.h:62-66 *)
  Definition set_scale_id (p : pyramid) (id : nat) : outcome pyramid :=
    ls <- ensure_continuous (py_levels p) ;;
    _ <- assert_ (id <? length ls)%nat ;;
    Ok (mkPyr ls id).
  (** rescalable_caching_grid_map.h:83-89; running past the last level reads outside of the vector *)
  Fixpoint find_level (ls : list level) (target : D) (id : nat) : outcome nat :=
    match ls with
    | [] => UB
    | l :: ls => if dle target (lv_scale l) then Ok id else find_level ls target (S id)
    end.
  (** rescalable_caching_grid_map.h:79-91 *)
  Definition rescale (p : pyramid) (target : D) : outcome pyramid :=
    ls <- ensure_continuous (py_levels p) ;;
    id <- find_level ls target 0 ;;
    set_scale_id (mkPyr ls (py_active p)) id.
  (** rescalable_caching_grid_map.h:74 *)
  Definition py_scale (p : pyramid) : outcome D :=
    match nth_error (py_levels p) (py_active p) with Some l => Ok (lv_scale l) | None => UB end.
  (** rescalable_caching_grid_map.h:100-112 in the base class, whose hooks (143-144) do nothing: the active level is written *)
  Definition py_write (p : pyramid) (c : coord) (f : C -> C) : outcome pyramid :=
    match nth_error (py_levels p) (py_active p) with
    | None => UB
    | Some l => Ok (mkPyr (upd (py_levels p) (py_active p) (fun _ => write_cell l c (f (lv_cells l c)))) (py_active p))
    end.
  (** rescalable_caching_grid_map.h:203-217 [SafeRescalableMap]: a scope that remembers the scale, runs [body] and rescales
      back (the destructor) *)
  Definition with_safe_rescaling (p : pyramid) (body : pyramid -> outcome pyramid) : outcome pyramid :=
    s <- py_scale p ;;
    p <- body p ;;
    rescale p s.

  (** ** m3rsm_engine.h *)
  Variable impact : C -> D.                 (* estimate_spe_obstacle_impact, lines 67-69 *)
  Variable is_unknown : C -> bool.

  (** the cells of a level met by a rectangle, border excluded: grid_rasterization.h *)
  Definition level_raster (l : level) (r : rect D) : outcome (list coord) :=
    ra <- raster_rect (lv_w l) (lv_h l) (lv_origin l) (lv_scale l) r false ;;
    raster_to_vector (Z.to_nat ((cx (r_rt ra) - cx (r_lb ra) + 1) * (cy (r_rt ra) - cy (r_lb ra) + 1))) ra.

  (** m3rsm_engine.h:111-123 *)
  Fixpoint raise_cells (l : level) (cs : list coord) (v : C) (updated : bool) : level * bool :=
    match cs with
    | [] => (l, updated)
    | c :: cs =>
        let old := lv_cells l c in
        if negb (is_unknown old) && less_or_equal (impact v) (impact old) then raise_cells l cs v updated
        else raise_cells (write_cell l c v) cs v true
    end.
  (** m3rsm_engine.h:105-125; [space] is the modified cell's bounds (103), [v] the modified cell (102) *)
  Fixpoint raise_levels (fuel : nat) (ls : list level) (id : nat) (space : rect D) (v : C) : outcome (list level) :=
    ls <- ensure_continuous ls ;;
    match nth_error ls id with
    | None => Ok ls                                     (* coarsest_scale_id() < coarser_scale_id *)
    | Some l =>
        match fuel with
        | O => OutOfFuel
        | S fuel =>
            cs <- level_raster l space ;;
            let '(l, updated) := raise_cells l cs v false in
            let ls := upd ls id (fun _ => l) in
            if updated then raise_levels fuel ls (S id) space v else Ok ls
        end
    end.
  (** rescalable_caching_grid_map.h:100-112 with m3rsm_engine.h:85-99: write the cell at [c] of the active level ([f]: its new
      value from the old one, for both update and reset), then raise the coarser levels *)
  Definition m3_write (fuel : nat) (p : pyramid) (c : coord) (f : C -> C) : outcome pyramid :=
    p <- py_write p c f ;;
    _ <- assert_ (Nat.eqb (py_active p) 0) ;;           (* m3rsm_engine.h:91 *)
    match nth_error (py_levels p) (py_active p) with
    | None => UB
    | Some l =>
        space <- world_cell_bounds (lv_scale l) c ;;
        ls <- raise_levels fuel (py_levels p) 1 space (lv_cells l c) ;;
        Ok (mkPyr ls (py_active p))
    end.
  (** a history of writes *)
  Fixpoint m3_run (fuel : nat) (p : pyramid) (h : list (coord * (C -> C))) : outcome pyramid :=
    match h with
    | [] => Ok p
    | (c, f) :: h => p <- m3_write fuel p c f ;; m3_run fuel p h
    end.
End Pyramid.
Arguments level D C : clear implicits.
Arguments pyramid D C : clear implicits.
