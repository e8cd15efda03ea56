(** Model of src/slams/gmapping/gmapping_occupancy_observation_pe.h. *)
From Coq Require Import ZArith List Bool.
From Verif.Base Require Import Outcome Num.
From Verif.Model Require Import MathUtils Geometry Grid Cells.
Import ListNotations.
Local Open Scope Z_scope.
Local Open Scope outcome_scope.

Section Oope.
  Context {D : Type} {ops : DOps D}.
  Variable dexp : D -> D.
  Variables (fullness_th : D) (window : Z).

  (** the map as seen by the estimator: its scale and operator[] *)
  Record gmap := mkGMap { gm_scale : D; gm_at : coord -> gmcell D }.

  (** gmapping_occupancy_observation_pe.h:29-32: one step of the window; [cell < Fullness_Th] compares the occupancy *)
  Definition oope_step (m : gmap) (sp : coord) (a : aoo D) (best : D) (d : coord) : D :=
    let cell := gm_at m (coord_add sp d) in
    if dlt (c_prob (g_cell cell)) fullness_th then best
    else dmax best (dsub (dofZ 1) (gm_discrepancy dexp cell a)).
  (** 27-28: the window offsets in the order of the loops *)
  Definition zseq (lo n : Z) : list Z := map (fun i => lo + Z.of_nat i) (seq 0 (Z.to_nat n)).
  Definition window_offsets : list coord :=
    flat_map (fun dx => map (fun dy => (dx, dy)) (zseq (- window) (2 * window + 1))) (zseq (- window) (2 * window + 1)).
  (** 26-34 *)
  Definition oope_window (m : gmap) (sp : coord) (a : aoo D) : D :=
    fold_left (oope_step m sp a) window_offsets (dofZ 0).

  (** 43-44: _cached_coord is (0, 0) and _cached_prob is -1 initially *)
  Record oope := mkOope { o_coord : coord; o_prob : D }.
  Definition oope_new : oope := mkOope (0, 0) (dofZ (-1)).

  (** 17-38; [_cached_prob != -1] *)
  Definition oope_probability (st : oope) (m : gmap) (a : aoo D) : outcome (D * oope) :=
    _ <- assert_ (a_is_occ a) ;;
    sp <- world_to_cell (gm_scale m) (a_obst a) ;;
    if coord_eqb sp (o_coord st) && negb (deq (o_prob st) (dofZ (-1))) then Ok (o_prob st, st)
    else let p := oope_window m sp a in Ok (p, mkOope sp p).

  (** a history of queries, each on the map as it is then *)
  Fixpoint oope_run (st : oope) (qs : list (gmap * aoo D)) : outcome (list D) :=
    match qs with
    | [] => Ok []
    | (m, a) :: qs => '(p, st) <- oope_probability st m a ;; r <- oope_run st qs ;; Ok (p :: r)
    end.
End Oope.
Arguments gmap D : clear implicits.
Arguments oope D : clear implicits.
