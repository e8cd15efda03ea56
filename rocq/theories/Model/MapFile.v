(** Model of saving and loading the map of a configuration: GridMap's save_state/load_state (src/core/maps/grid_map.h:63-67)
    and their overrides in plain_grid_map.h:79-129 (Model/MapState.v) and rescalable_caching_grid_map.h:114-145, for the map
    types of src/utils/init_occupancy_mapping.h:112-151. *)
From Coq Require Import ZArith List Bool.
From Verif.Base Require Import Outcome Num.
From Verif.Model Require Import MathUtils Geometry Grid PlainMap LazyMap Serialization MapState.
Import ListNotations.
Local Open Scope Z_scope.
Local Open Scope outcome_scope.

(** what a rescalable map uses of the class of its levels: constructor, size, scale, save_state, load_state *)
Record back_class (C B : Type) := mkBack {
  bk_new : C -> Z -> Z -> F64 -> outcome B;
  bk_width : B -> Z; bk_height : B -> Z; bk_scale : B -> F64;
  bk_save : B -> outcome bytes;
  bk_load : B -> bytes -> outcome B }.
Arguments mkBack {C B}. Arguments bk_new {C B}. Arguments bk_width {C B}. Arguments bk_height {C B}. Arguments bk_scale {C B}.
Arguments bk_save {C B}. Arguments bk_load {C B}.

Section Classes.
  Context {C : Type}.
  (** grid_map.h:63-67, not overridden by PlainGridMap, LazyTiledGridMap and UnboundedLazyTiledGridMap *)
  Definition grid_map_save {B} (_ : B) : outcome bytes := Ok [].
  Definition grid_map_load {B} (b : B) (_ : bytes) : outcome B := Ok b.

  (** a map of plain_grid_map.h with its scale (regular_squares_grid.h:153) *)
  Definition plain_class : back_class C (pmap C * F64) :=
    mkBack (fun proto w h s => Ok (pmap_new proto w h, s)) (fun b => p_w (fst b)) (fun b => p_h (fst b)) snd grid_map_save grid_map_load.
  (** plain_grid_map.h:79-129 *)
  Definition unbounded_plain_class (cc : codec C) : back_class C (pmap C * F64) :=
    mkBack (fun proto w h s => Ok (pmap_new proto w h, s)) (fun b => p_w (fst b)) (fun b => p_h (fst b)) snd
      (fun b => save_state cc (fst b) (snd b)) (fun b data => load_state cc (fst b) data).
  (** a map of lazy_tiled_grid_map.h that shares nothing with others: a heap with one map *)
  Definition lazy_map (s : lstate C) : option lmap := match s_maps s with [Some m] => Some m | _ => None end.
  Definition lazy_class (unb : bool) : back_class C (lstate C * F64) :=
    mkBack (fun proto w h s => st <- lstep Tile_Size_Bits (Ob := unit) (fun c _ => c) lempty (LCreate unb proto w h) ;; Ok (st, s))
      (fun b => match lazy_map (fst b) with Some m => l_w m | None => 0 end)
      (fun b => match lazy_map (fst b) with Some m => l_h m | None => 0 end) snd grid_map_save grid_map_load.
End Classes.

Section Rescalable.
  Context {C B : Type}.
  Variable bk : back_class C B.
  Variable proto : C.                                         (* cell_prototype() of the rescalable map *)

  (** rescalable_caching_grid_map.h:197-199 *)
  Record rmap := mkRM { rm_maps : list B; rm_active : nat }.

  (** rescalable_caching_grid_map.h:185-193: the levels added, finest first *)
  Fixpoint added_maps (fuel : nat) (w h : Z) (s : F64) : outcome (list B) :=
    if (2 <? w) || (2 <? h) then
      match fuel with
      | O => OutOfFuel
      | S fuel =>
          let w := Z.max 2 (Z.quot w 2) in
          let h := Z.max 2 (Z.quot h 2) in
          let s := dmul s (dofZ 2) in
          m <- bk_new bk proto w h s ;;
          l <- added_maps fuel w h s ;; Ok (m :: l)
      end
    else Ok [].
  (** rescalable_caching_grid_map.h:171-194 *)
  Definition ensure_maps (ms : list B) : outcome (list B) :=
    if (length ms <? 2)%nat then Ok ms
    else
      let n := (length ms - 2)%nat in
      match nth_error ms n with
      | None => UB
      | Some pc =>
          if (bk_width bk pc <=? 2) && (bk_height bk pc <=? 2) then Ok ms
          else
            w <- ge_pow 33 2 (bk_width bk pc) ;;
            h <- ge_pow 33 2 (bk_height bk pc) ;;
            l <- added_maps 40 w h (bk_scale bk pc) ;;
            Ok (firstn (S n) ms ++ l ++ skipn (S n) ms)
      end.
  (** rescalable_caching_grid_map.h:62-66 *)
  Definition rm_set_scale_id (p : rmap) (id : nat) : outcome rmap :=
    ms <- ensure_maps (rm_maps p) ;;
    _ <- assert_ (id <? length ms)%nat ;;
    Ok (mkRM ms id).
  (** rescalable_caching_grid_map.h:27-42; [infinity]: std::numeric_limits<double>::infinity() *)
  Definition rm_new (infinity : F64) (w h : Z) (s : F64) : outcome rmap :=
    m0 <- bk_new bk proto w h s ;;
    m1 <- bk_new bk proto 1 1 infinity ;;
    ms <- ensure_maps [m0; m1] ;;
    rm_set_scale_id (mkRM ms 0) 0.

  (** rescalable_caching_grid_map.h:119-123 *)
  Fixpoint save_chunks (ms : list B) (s : bytes) : outcome bytes :=
    match ms with
    | [] => Ok s
    | m :: ms => d <- bk_save bk m ;; save_chunks ms (append_data (add_value s (VSize (Z.of_nat (length d)))) d)
    end.
  (** rescalable_caching_grid_map.h:116-125; the calls of coarsest_scale_id and scales_nm may add levels to the (mutable) cache *)
  Definition rm_save (p : rmap) : outcome (bytes * rmap) :=
    ms <- ensure_maps (rm_maps p) ;;
    d <- save_chunks ms [] ;;
    Ok (d, mkRM ms (rm_active p)).

  (** rescalable_caching_grid_map.h:130-142.  Each turn takes at least 8 bytes: [fuel] = the size of the data suffices. *)
  Fixpoint load_chunks (fuel : nat) (data : bytes) (pos : nat) : outcome (list B) :=
    if Nat.eqb pos (length data) then Ok []
    else
      match fuel with
      | O => OutOfFuel
      | S fuel =>
          '(size, pos) <- read_size data pos ;;
          let n := Z.to_nat size in
          _ <- assert_ (pos + n <=? length data)%nat ;;
          m <- bk_new bk proto 0 0 (dofZ 0) ;;
          m <- bk_load bk m (firstn n (skipn pos data)) ;;
          ms <- load_chunks fuel data (pos + n) ;;
          Ok (m :: ms)
      end.
  (** rescalable_caching_grid_map.h:127-145; the levels of the loading map are dropped (129) *)
  Definition rm_load (_ : rmap) (data : bytes) : outcome rmap :=
    ms <- load_chunks (length data) data 0 ;;
    ms <- ensure_maps ms ;;
    rm_set_scale_id (mkRM ms 0) 0.
End Rescalable.
Arguments rmap B : clear implicits.
