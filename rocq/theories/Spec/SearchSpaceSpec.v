(** Specification for C92: the cell a pose stands on. *)
From Coq Require Import ZArith.
From Verif.Base Require Import Outcome Num.
From Verif.Model Require Import MathUtils Geometry Grid Sensor.

(** is cell [c] the one the pose stands on? *)
Definition stands_on (resolution : F64) (c : coord) (p : pose F64) : bool :=
  match world_to_cell resolution (px p, py p) with Ok c' => coord_eqb c' c | _ => false end.

