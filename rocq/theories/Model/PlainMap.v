(** Model of src/core/maps/plain_grid_map.h (PlainGridMap, UnboundedPlainGridMap) on top of
    src/core/maps/grid_map.h.  Cells are values of any type [C]; [cell_upd] is [GridCell::operator+=],
    [proto] is the prototype cell ([clone()] copies the value). *)
From Coq Require Import ZArith List Bool.
From Verif.Base Require Import Outcome Num.
From Verif.Model Require Import MathUtils Geometry Grid.
Import ListNotations.
Local Open Scope Z_scope.
Local Open Scope outcome_scope.

(** vector access with an [int]/[size_t] index; [None] when out of range *)
Definition znth {A} (l : list A) (i : Z) : option A :=
  if i <? 0 then None else nth_error l (Z.to_nat i).
Fixpoint set_nth {A} (l : list A) (n : nat) (a : A) : list A :=
  match l, n with
  | [], _ => []
  | _ :: t, O => a :: t
  | x :: t, S n => x :: set_nth t n a
  end.
Definition zset {A} (l : list A) (i : Z) (a : A) : list A := set_nth l (Z.to_nat i) a.

(** 32-bit unsigned arithmetic *)
Definition u32 (z : Z) : Z := z mod 2 ^ 32.
(** conversion double -> unsigned: UB when the truncated value does not fit *)
Definition to_uint (z : option Z) : outcome Z :=
  match z with
  | Some v => if (0 <=? v) && (v <? 2 ^ 32) then Ok v else UB
  | None => UB
  end.

Section PlainMap.
  Context {C Ob D : Type} {ops : DOps D}.
  Variable cell_upd : C -> Ob -> C.

  (** plain_grid_map.h:44, 188-189 and regular_squares_grid.h:151-152.  [p_origin] is the value of
      [origin()]: for the bounded map the derived (w/2, h/2), for the unbounded one the field [_origin]. *)
  Record pmap := mkPMap {
    p_w : Z; p_h : Z;
    p_origin : coord;
    p_cells : list (list C);
    p_proto : C
  }.

  (** plain_grid_map.h:16-25, 53-56 (constructors) *)
  Definition pmap_new (proto : C) (w h : Z) : pmap :=
    mkPMap w h (default_origin w h) (repeat (repeat proto (Z.to_nat w)) (Z.to_nat h)) proto.

  (** plain_grid_map.h:40-42 [*_cells[ic.y][ic.x]] (unchecked: UB out of range) *)
  Definition cell_internal (m : pmap) (ic : coord) : outcome C :=
    match znth (p_cells m) (cy ic) with
    | None => UB
    | Some row => match znth row (cx ic) with None => UB | Some c => Ok c end
    end.

  (** plain_grid_map.h:35: assigning [_cells[ic.y][ic.x]] *)
  Definition set_internal (m : pmap) (ic : coord) (c : C) : outcome pmap :=
    match znth (p_cells m) (cy ic) with
    | None => UB
    | Some row =>
        match znth row (cx ic) with
        | None => UB
        | Some _ => Ok (mkPMap (p_w m) (p_h m) (p_origin m)
                          (zset (p_cells m) (cy ic) (zset row (cx ic) c)) (p_proto m))
        end
    end.

  (** *** bounded map *)
  (** plain_grid_map.h:27-31 *)
  Definition plain_get (m : pmap) (c : coord) : outcome C :=
    let ic := external2internal (p_origin m) c in
    _ <- assert_ (has_internal_cell (p_w m) (p_h m) ic) ;;
    cell_internal m ic.

  (** plain_grid_map.h:33-36 (no check) *)
  Definition plain_reset (m : pmap) (c : coord) (v : C) : outcome pmap :=
    set_internal m (external2internal (p_origin m) c) v.

  (** grid_map.h:41-46 [GridMap::update]: (this object)[area_id] += aoo, through operator[] *)
  Definition plain_update (m : pmap) (c : coord) (o : Ob) : outcome pmap :=
    v <- plain_get m c ;;
    set_internal m (external2internal (p_origin m) c) (cell_upd v o).

  (** *** unbounded map *)
  (** plain_grid_map.h:175-185 *)
  Definition determine_cells_nm (min val max : Z) : outcome (Z * Z) :=
    _ <- assert_ (min <=? max) ;;
    Ok (if val <? min then (u32 (min - val), 0)
        else if max <=? val then (0, u32 (val - max + 1))
        else (0, 0)).

  (** plain_grid_map.h:51 *)
  Definition expansion_rate : D := dlit 12 10.

  (** plain_grid_map.h:143-149 [UPDATE_DIM(dim, elem)]: returns (new_dim, prep, app).
      [prep / (new_dim - dim)] is an integer division; assigning a double to an unsigned truncates. *)
  Definition update_dim (dim new_dim prep app : Z) : outcome (Z * Z * Z) :=
    if (dim <? new_dim) && dlt (dofZ new_dim) (dmul expansion_rate (dofZ dim)) then
      let scale : D := dofZ (prep / u32 (new_dim - dim)) in
      prep' <- to_uint (dtrunc (dadd (dofZ prep)
                 (dmul (dsub (dmul expansion_rate (dofZ dim)) (dofZ new_dim)) scale))) ;;
      new_dim' <- to_uint (dtrunc (dmul expansion_rate (dofZ dim))) ;;
      Ok (new_dim', prep', u32 (new_dim' - u32 (prep' + dim)))
    else Ok (new_dim, prep, app).

  (** plain_grid_map.h:162-163: move the old row into the new one, starting at [prep]
      ([&new_cells[y][prep_x]] is an element access: UB at or past the end) *)
  Definition splice_row (prep : Z) (row base : list C) : outcome (list C) :=
    if (prep <? Z.of_nat (length base)) && (prep + Z.of_nat (length row) <=? Z.of_nat (length base)) then
      Ok (firstn (Z.to_nat prep) base ++ row ++ skipn (Z.to_nat prep + length row) base)
    else UB.

  (** plain_grid_map.h:157-164, one row *)
  Definition grown_row (old : list (list C)) (proto : C) (new_w prep_x prep_y h y : Z) : outcome (list C) :=
    let base := repeat proto (Z.to_nat new_w) in
    if (y <? prep_y) || (prep_y + h <=? y) then Ok base
    else match znth old (y - prep_y) with
         | None => UB
         | Some row => splice_row prep_x row base
         end.

  Fixpoint grown_rows (old : list (list C)) (proto : C) (new_w prep_x prep_y h : Z) (y : Z) (n : nat)
      : outcome (list (list C)) :=
    match n with
    | O => Ok []
    | S n =>
        r <- grown_row old proto new_w prep_x prep_y h y ;;
        rs <- grown_rows old proto new_w prep_x prep_y h (y + 1) n ;;
        Ok (r :: rs)
    end.

  (** plain_grid_map.h:133-173 [ensure_inside] *)
  Definition ensure_inside (m : pmap) (c : coord) : outcome pmap :=
    let ic := external2internal (p_origin m) c in
    if has_internal_cell (p_w m) (p_h m) ic then Ok m
    else
      let w := u32 (p_w m) in
      let h := u32 (p_h m) in
      '(prep_x, app_x) <- determine_cells_nm 0 (cx ic) (wrap32 w) ;;
      '(prep_y, app_y) <- determine_cells_nm 0 (cy ic) (wrap32 h) ;;
      let new_w := u32 (prep_x + w + app_x) in
      let new_h := u32 (prep_y + h + app_y) in
      '(new_w, prep_x, app_x) <- update_dim w new_w prep_x app_x ;;
      '(new_h, prep_y, app_y) <- update_dim h new_h prep_y app_y ;;
      cells <- grown_rows (p_cells m) (p_proto m) new_w prep_x prep_y h 0 (Z.to_nat new_h) ;;
      let m' := mkPMap (wrap32 new_w) (wrap32 new_h)
                       (coord_add (p_origin m) (wrap32 prep_x, wrap32 prep_y)) cells (p_proto m) in
      _ <- assert_ (has_internal_cell (p_w m') (p_h m') (external2internal (p_origin m') c)) ;;
      Ok m'.

  (** plain_grid_map.h:69-73 ([_unknown_cell] is a clone of the prototype, never modified) *)
  Definition unb_get (m : pmap) (c : coord) : outcome C :=
    let ic := external2internal (p_origin m) c in
    if has_internal_cell (p_w m) (p_h m) ic then cell_internal m ic else Ok (p_proto m).

  (** plain_grid_map.h:58-62; [PlainGridMap::update] is [GridMap::update], which reads through the
      virtual [operator[]] (here [unb_get], whose result is the stored cell as [c] is inside) *)
  Definition unb_update (m : pmap) (c : coord) (o : Ob) : outcome pmap :=
    m <- ensure_inside m c ;;
    v <- unb_get m c ;;
    set_internal m (external2internal (p_origin m) c) (cell_upd v o).

  (** plain_grid_map.h:64-67 *)
  Definition unb_reset (m : pmap) (c : coord) (v : C) : outcome pmap :=
    m <- ensure_inside m c ;;
    plain_reset m c v.

  (** operations of a map's user *)
  Inductive map_op := Update (c : coord) (o : Ob) | Reset (c : coord) (v : C).
  Definition unb_step (m : pmap) (op : map_op) : outcome pmap :=
    match op with
    | Update c o => unb_update m c o
    | Reset c v => unb_reset m c v
    end.
  Fixpoint unb_run (m : pmap) (l : list map_op) : outcome pmap :=
    match l with
    | [] => Ok m
    | op :: l => m' <- unb_step m op ;; unb_run m' l
    end.

  Definition plain_step (m : pmap) (op : map_op) : outcome pmap :=
    match op with
    | Update c o => plain_update m c o
    | Reset c v => plain_reset m c v
    end.
  Fixpoint plain_run (m : pmap) (l : list map_op) : outcome pmap :=
    match l with
    | [] => Ok m
    | op :: l => m' <- plain_step m op ;; plain_run m' l
    end.
End PlainMap.
Arguments pmap C : clear implicits.
Arguments map_op C Ob : clear implicits.
