(** What a scan matcher sees of a grid map: the GridMap interface (src/core/maps/grid_map.h, regular_squares_grid.h) of the maps
    of WholeSlam. *)
From Coq Require Import ZArith List Bool.
From Verif.Base Require Import Outcome Num.
From Verif.Model Require Import MathUtils Geometry Grid PlainMap LazyMap Cells Spe Pyramid WholeSlam.
Import ListNotations.
Local Open Scope Z_scope.

Section MapView.
  Context {D : Type} {ops : DOps D}.
  (** width(), height(), origin(), has_cell() and operator[] const.
      regular_squares_grid.h:29-31, 120-126, 134-136 (bounded maps), plain_grid_map.h:27-31, 69-77 and lazy_tiled_grid_map.h:47-49,
      140-150 (unbounded maps have every cell), rescalable_caching_grid_map.h:71-77, 96-98 (the active level; its back maps have
      every cell).
      Simplified: the scale of all but rescalable maps is given ([scale]); a destroyed map has no cell. *)
  Definition amap_view (scale : D) (m : amap D) : omap D (acell D) :=
    match m with
    | MPlain p =>
        mkOmap (p_w p) (p_h p) (p_origin p) scale (fun c => has_internal_cell (p_w p) (p_h p) (external2internal (p_origin p) c)) (amap_get m)
    | MUnbounded p => mkOmap (p_w p) (p_h p) (p_origin p) scale (fun _ => true) (amap_get m)
    | MLazy s i =>
        match get_map s i with
        | Ok l => mkOmap (l_w l) (l_h l) (l_origin l) scale
                    (fun c => l_unb l || has_internal_cell (l_w l) (l_h l) (external2internal (l_origin l) c)) (amap_get m)
        | _ => mkOmap 0 0 (0, 0) scale (fun _ => false) (amap_get m)
        end
    | MRescalable p =>
        match nth_error (py_levels p) (py_active p) with
        | Some l => mkOmap (lv_w l) (lv_h l) (lv_origin l) (lv_scale l) (fun _ => true) (amap_get m)
        | None => mkOmap 0 0 (0, 0) scale (fun _ => false) (amap_get m)
        end
    end.
End MapView.
