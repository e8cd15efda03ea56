(** Model of src/core/maps/lazy_tiled_grid_map.h (LazyTiledGridMap, UnboundedLazyTiledGridMap).

    Sharing is the point of this class, so the model has an explicit heap.  A [shared_ptr] is an index into the
    heap; [use_count()] is the number of owners that are alive: entries of the [_tiles] vectors and
    [_unknown_tile] fields of the live maps (for tiles), [_unknown_cell] fields of the live maps and entries
    of the live tiles (for cells).  Storage is never reused by the model (freed objects just stay unreferenced).
    The null-tile branch (lines 60-62) cannot be taken: vectors are always filled with tiles.
    [bits] stands for Tile_Size_Bits (= 7, line 20). *)
From Coq Require Import ZArith List Bool Arith.
From Verif.Base Require Import Outcome Num.
From Verif.Model Require Import MathUtils Geometry Grid PlainMap.
Import ListNotations.
Local Open Scope Z_scope.
Local Open Scope outcome_scope.

(** lines 20-22 *)
Definition Tile_Size_Bits : Z := 7.
Definition tile_size (bits : Z) : Z := Z.shiftl 1 bits.
Definition tile_mask (bits : Z) : Z := tile_size bits - 1.

(** lines 112-117, 185-186, and the inherited width/height.  [l_unb]: dynamic class is the unbounded one;
    [l_origin] is the value of [origin()]. *)
Record lmap := mkLMap {
  l_unb : bool;
  l_w : Z; l_h : Z;
  l_origin : coord;
  l_ucell : nat;
  l_utile : nat;
  l_tnx : Z; l_tny : Z;
  l_tiles : list nat
}.

(** lines 88-104: a tile is an array of pointers to cells *)
Definition ltile := list nat.

Section LazyMap.
  Variable bits : Z.
  Context {C Ob : Type}.
  Variable cell_upd : C -> Ob -> C.

  Record lstate := mkLState {
    s_cells : list C;                (* cell objects ever allocated *)
    s_tiles : list ltile;            (* tile objects ever allocated *)
    s_maps : list (option lmap)      (* the maps of the program; None: destroyed *)
  }.

  Definition live_maps (s : lstate) : list lmap :=
    flat_map (fun o => match o with Some m => [m] | None => [] end) (s_maps s).
  Definition tile_owners (s : lstate) : list nat :=
    flat_map (fun m => l_utile m :: l_tiles m) (live_maps s).
  Definition tile_use_count (s : lstate) (t : nat) : nat := count_occ Nat.eq_dec (tile_owners s) t.
  Definition live_tiles (s : lstate) : list nat :=
    filter (fun t => Nat.ltb 0 (tile_use_count s t)) (seq 0 (length (s_tiles s))).
  Definition tile_cells (s : lstate) (t : nat) : list nat := nth t (s_tiles s) [].
  Definition cell_owners (s : lstate) : list nat :=
    map l_ucell (live_maps s) ++ flat_map (tile_cells s) (live_tiles s).
  Definition cell_use_count (s : lstate) (c : nat) : nat := count_occ Nat.eq_dec (cell_owners s) c.

  (** lines 107-110: [(c.y >> bits) * _tiles_nm_x + (c.x >> bits)] in unsigned arithmetic; the vector access
      is unchecked *)
  Definition tile_index (m : lmap) (ic : coord) : Z :=
    u32 (Z.shiftr (cy ic) bits * l_tnx m + Z.shiftr (cx ic) bits).
  (** lines 98-101 *)
  Definition cell_index (ic : coord) : Z :=
    Z.land (cx ic) (tile_mask bits) * tile_size bits + Z.land (cy ic) (tile_mask bits).

  (** lines 53-55, 107-110 [*tile(ic)->cell(ic)]: the tile, the cell pointer *)
  Definition tile_at (m : lmap) (ic : coord) : outcome nat :=
    match znth (l_tiles m) (tile_index m ic) with Some t => Ok t | None => UB end.
  Definition cell_ptr (s : lstate) (t : nat) (ic : coord) : outcome nat :=
    match nth_error (s_tiles s) t with
    | Some cells => match znth cells (cell_index ic) with Some c => Ok c | None => UB end
    | None => UB
    end.
  Definition deref (s : lstate) (c : nat) : outcome C :=
    match nth_error (s_cells s) c with Some v => Ok v | None => UB end.
  Definition lcell_internal (s : lstate) (m : lmap) (ic : coord) : outcome C :=
    t <- tile_at m ic ;;
    p <- cell_ptr s t ic ;;
    deref s p.

  (** lines 47-49 and 140-147 [operator[]] *)
  Definition lget (s : lstate) (m : lmap) (c : coord) : outcome C :=
    let ic := external2internal (l_origin m) c in
    if l_unb m then
      if has_internal_cell (l_w m) (l_h m) ic then lcell_internal s m ic else deref s (l_ucell m)
    else lcell_internal s m ic.

  (** *** state updates *)
  Definition set_map (s : lstate) (i : nat) (m : option lmap) : lstate :=
    mkLState (s_cells s) (s_tiles s) (set_nth (s_maps s) i m).
  Definition set_slot (m : lmap) (k : Z) (t : nat) : lmap :=
    mkLMap (l_unb m) (l_w m) (l_h m) (l_origin m) (l_ucell m) (l_utile m) (l_tnx m) (l_tny m)
           (zset (l_tiles m) k t).
  Definition get_map (s : lstate) (i : nat) : outcome lmap :=
    match nth_error (s_maps s) i with Some (Some m) => Ok m | _ => UB end.
  (** a new tile / cell object; its pointer *)
  Definition alloc_tile (s : lstate) (t : ltile) : nat * lstate :=
    (length (s_tiles s), mkLState (s_cells s) (s_tiles s ++ [t]) (s_maps s)).
  Definition alloc_cell (s : lstate) (v : C) : nat * lstate :=
    (length (s_cells s), mkLState (s_cells s ++ [v]) (s_tiles s) (s_maps s)).
  Definition set_tile_cell (s : lstate) (t : nat) (j : Z) (p : nat) : lstate :=
    mkLState (s_cells s) (set_nth (s_tiles s) t (zset (tile_cells s t) j p)) (s_maps s).
  Definition set_cell_value (s : lstate) (p : nat) (v : C) : lstate :=
    mkLState (set_nth (s_cells s) p v) (s_tiles s) (s_maps s).

  (** lines 57-71 [ensure_sole_owning]: first the tile (63-65), then the cell (67-70) *)
  Definition own_tile (s : lstate) (i : nat) (c : coord) : outcome lstate :=
    m <- get_map s i ;;
    let ic := external2internal (l_origin m) c in
    t <- tile_at m ic ;;
    if Nat.ltb 1 (tile_use_count s t) then
      match nth_error (s_tiles s) t with
      | None => UB
      | Some cells =>
          let '(t', s) := alloc_tile s cells in
          Ok (set_map s i (Some (set_slot m (tile_index m ic) t')))
      end
    else Ok s.

  Definition own_cell (s : lstate) (i : nat) (c : coord) : outcome lstate :=
    m <- get_map s i ;;
    let ic := external2internal (l_origin m) c in
    t <- tile_at m ic ;;
    p <- cell_ptr s t ic ;;
    if Nat.ltb 1 (cell_use_count s p) then
      v <- deref s p ;;
      let '(p', s) := alloc_cell s v in
      Ok (set_tile_cell s t (cell_index ic) p')
    else Ok s.

  Definition ensure_sole_owning (s : lstate) (i : nat) (c : coord) : outcome lstate :=
    s <- own_tile s i c ;;
    own_cell s i c.

  (** lines 35-39 [LazyTiledGridMap::update] + grid_map.h:41-46: [+=] modifies the cell object in place *)
  Definition lazy_update (s : lstate) (i : nat) (c : coord) (o : Ob) : outcome lstate :=
    s <- ensure_sole_owning s i c ;;
    m <- get_map s i ;;
    let ic := external2internal (l_origin m) c in
    p <- (if l_unb m && negb (has_internal_cell (l_w m) (l_h m) ic) then Ok (l_ucell m)
          else t <- tile_at m ic ;; cell_ptr s t ic) ;;
    v <- deref s p ;;
    Ok (set_cell_value s p (cell_upd v o)).

  (** lines 41-45 [LazyTiledGridMap::reset]: the pointer in the tile is replaced by a new cell object *)
  Definition lazy_reset (s : lstate) (i : nat) (c : coord) (v : C) : outcome lstate :=
    s <- ensure_sole_owning s i c ;;
    m <- get_map s i ;;
    let ic := external2internal (l_origin m) c in
    t <- tile_at m ic ;;
    _ <- cell_ptr s t ic ;;
    let '(p, s) := alloc_cell s v in
    Ok (set_tile_cell s t (cell_index ic) p).

  (** lines 76-86 *)
  Definition extra_tiles_nm (min val max : Z) : outcome (Z * Z) :=
    _ <- assert_ (min <=? max) ;;
    Ok (if val <? min then (u32 (1 + Z.shiftr (min - val) bits), 0)
        else if max <=? val then (0, u32 (1 + Z.shiftr (val - max) bits))
        else (0, 0)).

  (** lines 168-172: row [row_i] of the old vector is moved into the new one.  ([&_tiles[size]] of the last
      row is taken as the end pointer, as every implementation does.) *)
  Fixpoint move_rows (old : list nat) (tnx new_tnx prep_x prep_y : Z) (row_i : Z) (n : nat) (new : list nat)
      : outcome (list nat) :=
    match n with
    | O => Ok new
    | S n =>
        let row := firstn (Z.to_nat tnx) (skipn (Z.to_nat (row_i * tnx)) old) in
        new <- splice_row (u32 ((prep_y + row_i) * new_tnx + prep_x)) row new ;;
        move_rows old tnx new_tnx prep_x prep_y (row_i + 1) n new
    end.

  (** lines 154-183 [ensure_inside] *)
  Definition lazy_ensure_inside (m : lmap) (c : coord) : outcome lmap :=
    let ic := external2internal (l_origin m) c in
    if has_internal_cell (l_w m) (l_h m) ic then Ok m
    else
      '(prep_x, app_x) <- extra_tiles_nm 0 (cx ic) (l_w m) ;;
      '(prep_y, app_y) <- extra_tiles_nm 0 (cy ic) (l_h m) ;;
      let ntx := u32 (prep_x + l_tnx m + app_x) in
      let nty := u32 (prep_y + l_tny m + app_y) in
      _ <- assert_ ((l_tnx m <=? ntx) && (l_tny m <=? nty)) ;;
      tiles <- move_rows (l_tiles m) (l_tnx m) ntx prep_x prep_y 0 (Z.to_nat (l_tny m))
                 (repeat (l_utile m) (Z.to_nat (u32 (ntx * nty)))) ;;
      let m' := mkLMap (l_unb m) (wrap32 (u32 (ntx * tile_size bits))) (wrap32 (u32 (nty * tile_size bits)))
                  (coord_add (l_origin m) (wrap32 (u32 (prep_x * tile_size bits)), wrap32 (u32 (prep_y * tile_size bits))))
                  (l_ucell m) (l_utile m) ntx nty tiles in
      _ <- assert_ (has_internal_cell (l_w m') (l_h m') (external2internal (l_origin m') c)) ;;
      Ok m'.

  (** *** what a program does with maps *)
  Inductive lop :=
  | LCreate (unb : bool) (proto : C) (w h : Z)     (* constructor of either class *)
  | LCopy (i : nat)                                (* implicit copy constructor: all pointers are shared *)
  | LAssign (dst src : nat)                        (* implicit copy assignment *)
  | LDestroy (i : nat)
  | LUpdate (i : nat) (c : coord) (o : Ob)
  | LReset (i : nat) (c : coord) (v : C).

  Definition prepare (s : lstate) (i : nat) (c : coord) : outcome lstate :=
    m <- get_map s i ;;
    if l_unb m then m' <- lazy_ensure_inside m c ;; Ok (set_map s i (Some m')) else Ok s.

  Definition lstep (s : lstate) (op : lop) : outcome lstate :=
    match op with
    | LCreate unb proto w h =>                                                      (* lines 26-33, 124-127 *)
        let '(uc, s) := alloc_cell s proto in
        let '(ut, s) := alloc_tile s (repeat uc (Z.to_nat (tile_size bits * tile_size bits))) in
        let tnx := u32 (u32 (w + tile_size bits - 1)) / tile_size bits in
        let tny := u32 (u32 (h + tile_size bits - 1)) / tile_size bits in
        let m := mkLMap unb w h (default_origin w h) uc ut tnx tny
                   (repeat ut (Z.to_nat (u32 (tnx * tny)))) in
        Ok (mkLState (s_cells s) (s_tiles s) (s_maps s ++ [Some m]))
    | LCopy i =>
        m <- get_map s i ;; Ok (mkLState (s_cells s) (s_tiles s) (s_maps s ++ [Some m]))
    | LAssign i j =>
        _ <- get_map s i ;; m <- get_map s j ;; Ok (set_map s i (Some m))
    | LDestroy i =>
        _ <- get_map s i ;; Ok (set_map s i None)
    | LUpdate i c o =>                                                              (* lines 35-39, 129-133 *)
        s <- prepare s i c ;; lazy_update s i c o
    | LReset i c v =>                                                               (* lines 41-45, 135-138 *)
        s <- prepare s i c ;; lazy_reset s i c v
    end.
  Fixpoint lrun (s : lstate) (l : list lop) : outcome lstate :=
    match l with
    | [] => Ok s
    | op :: l => s' <- lstep s op ;; lrun s' l
    end.
  Definition lempty : lstate := mkLState [] [] [].
  (** reading map [i] at [c] *)
  Definition lread (s : lstate) (i : nat) (c : coord) : outcome C :=
    m <- get_map s i ;; lget s m c.
End LazyMap.
Arguments lstate C : clear implicits.
Arguments lop C Ob : clear implicits.
