(** Model of cell (de)serialization and of saving/loading the unbounded plain map:
    src/core/maps/grid_cell.h:37-47, tbm_grid_cells.h:37-51, src/slams/credibilist/grid_cell.h:42-56,
    src/core/maps/plain_grid_map.h:79-129. *)
From Coq Require Import ZArith List Bool.
From Verif.Base Require Import Outcome Num.
From Verif.Model Require Import MathUtils Geometry Grid PlainMap Serialization Cells.
Import ListNotations.
Local Open Scope Z_scope.
Local Open Scope outcome_scope.

(** grid_cell.h:37-41 *)
Definition gcell_ser (c : gcell F64) : bytes :=
  add_values [] [VDouble (prob_occ (c_occ c)); VDouble (est_quality (c_occ c)); VBool (c_unknown c)].
(** grid_cell.h:43-47 *)
Definition gcell_deser (data : bytes) (pos : nat) : outcome (gcell F64 * nat) :=
  '(p, pos) <- read_double data pos ;;
  '(q, pos) <- read_double data pos ;;
  '(u, pos) <- read_bool data pos ;;
  Ok (mkGCell (mkOcc p q) u, pos).
(** tbm_grid_cells.h:37-42, credibilist/grid_cell.h:42-47 *)
Definition tcell_ser (c : tcell F64) : bytes :=
  let b := tc_belief c in
  add_values (gcell_ser (tc_cell c))
    [VDouble (t_unknown b); VDouble (t_empty b); VDouble (t_occupied b); VDouble (t_conflict b)].
(** tbm_grid_cells.h:44-51, credibilist/grid_cell.h:49-56 *)
Definition tcell_deser (data : bytes) (pos : nat) : outcome (tcell F64 * nat) :=
  '(c, pos) <- gcell_deser data pos ;;
  '(u, pos) <- read_double data pos ;;
  '(e, pos) <- read_double data pos ;;
  '(o, pos) <- read_double data pos ;;
  '(k, pos) <- read_double data pos ;;
  Ok (mkTCell c (mkTbm u e o k), pos).

(** A cell class as the map code uses it: [deser c] overwrites the cell object [c]. *)
Record codec (C : Type) := mkCodec {
  ser : C -> bytes;
  deser : C -> bytes -> nat -> outcome (C * nat)
}.
Arguments mkCodec {C}. Arguments ser {C}. Arguments deser {C}.

(** GridCell, AffineQualityMergeCell (inherit both functions) *)
Definition gcell_codec : codec (gcell F64) := mkCodec gcell_ser (fun _ => gcell_deser).
(** TbmBaseCell descendants and CredibilistCell *)
Definition tcell_codec : codec (tcell F64) := mkCodec tcell_ser (fun _ => tcell_deser).
(** MeanProbabilityCell inherits GridCell's functions: the counter stays the one of the overwritten object *)
Definition mcell_codec : codec (mcell F64) :=
  mkCodec (fun c => gcell_ser (m_cell c))
          (fun c data pos => '(g, pos) <- gcell_deser data pos ;; Ok (mkMCell g (m_n c), pos)).
(** GmappingBaseCell: the same *)
Definition gmcell_codec : codec (gmcell F64) :=
  mkCodec (fun c => gcell_ser (g_cell c))
          (fun c data pos => '(g, pos) <- gcell_deser data pos ;;
             Ok (mkGm g (g_hits c) (g_tries c) (g_obst c), pos)).

Section State.
  Context {C : Type}.
  Variable cc : codec C.

  (** plain_grid_map.h:79-100.  Line 81 computes [w * h] in int (only used to reserve memory). *)
  Definition save_state (m : pmap C) (scale : F64) : outcome bytes :=
    if in_int (p_w m * p_h m) then
      let s := add_values [] [VInt (p_h m); VInt (p_w m); VDouble scale;
                              VInt (cx (p_origin m)); VInt (cy (p_origin m))] in
      let ms := fold_left (fun ms row => fold_left (fun ms c => append_data ms (ser cc c)) row ms) (p_cells m) [] in
      Ok (append_data s ms)
    else UB.

  (** plain_grid_map.h:121-127: one row *)
  Fixpoint load_row (proto : C) (data : bytes) (pos : nat) (w : nat) : outcome (list C * nat) :=
    match w with
    | O => Ok ([], pos)
    | S w =>
        '(c, pos) <- deser cc proto data pos ;;
        '(row, pos) <- load_row proto data pos w ;;
        Ok (c :: row, pos)
    end.
  Fixpoint load_rows (proto : C) (data : bytes) (pos : nat) (w h : nat) : outcome (list (list C) * nat) :=
    match h with
    | O => Ok ([], pos)
    | S h =>
        '(row, pos) <- load_row proto data pos w ;;
        '(rows, pos) <- load_rows proto data pos w h ;;
        Ok (row :: rows, pos)
    end.
  (** plain_grid_map.h:102-129; [m0] is the loading map.  resize(h) of a negative h throws. *)
  Definition load_state (m0 : pmap C) (data : bytes) : outcome (pmap C * F64) :=
    '(h, pos) <- read_int data 0 ;;
    '(w, pos) <- read_int data pos ;;
    '(s, pos) <- read_double data pos ;;
    '(ox, pos) <- read_int data pos ;;
    '(oy, pos) <- read_int data pos ;;
    if h <? 0 then Abort
    else
      '(cells, _) <- load_rows (p_proto m0) data pos (Z.to_nat w) (Z.to_nat h) ;;
      Ok (mkPMap w h (ox, oy) cells (p_proto m0), s).
End State.
