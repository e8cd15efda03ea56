(** Model of the observer of src/utils/pose2D_search_space_evaluator.cpp that draws the scores of the poses a scan matcher
    tests into a map. *)
From Coq Require Import ZArith List Bool.
From Verif.Base Require Import Outcome Num.
From Verif.Model Require Import MathUtils Geometry Grid PlainMap Sensor Matchers.
Import ListNotations.
Local Open Scope Z_scope.
Local Open Scope outcome_scope.

(** [Occupancy]: probability and quality (grid_cell.h) *)
Definition occ := (F64 * F64)%type.
(** pose2D_search_space_evaluator.cpp:21-30 [LastWriteWinsGridCell]; [operator+=] *)
Definition lww_cell (prob : F64) : occ := (prob, dofZ 0).
Definition lww_upd (_ o : occ) : occ := o.

(** pose2D_search_space_evaluator.cpp:35-40: the map, with the prototype's default probability 0.5 *)
Definition space_map : pmap occ := pmap_new (lww_cell (dlit 1 2)) 100 100.

(** pose2D_search_space_evaluator.cpp:46-58; the other events are ignored (grid_scan_matcher.h:16-32) *)
Definition on_event (resolution : F64) (m : pmap occ) (ev : event F64) : outcome (pmap occ) :=
  match ev with
  | EvTest p score =>
      c <- world_to_cell resolution (px p, py p) ;;
      unb_update (ops := FOps) lww_upd m c (score, dofZ 0)
  | _ => Ok m
  end.
Fixpoint on_events (resolution : F64) (m : pmap occ) (evs : list (event F64)) : outcome (pmap occ) :=
  match evs with
  | [] => Ok m
  | ev :: evs => m <- on_event resolution m ev ;; on_events resolution m evs
  end.

(** pose2D_search_space_evaluator.cpp:163-171: the search of the tool *)
Definition tool_cfg (resolution : F64) : bf_cfg F64 :=
  mkBfCfg (dofZ (-1)) (dofZ 1) resolution (dofZ (-1)) (dofZ 1) resolution (dofZ 0) (dofZ 0) (dlit 1 10).
(** pose2D_search_space_evaluator.cpp:87, 117, 132 *)
Definition tool_resolution : F64 := dlit 1 100.
(** pose2D_search_space_evaluator.cpp:176 *)
Definition tool_pose : pose F64 := mkPose (dlit 5 100) (dlit 5 100) (dofZ 0).
