(** The moves of a hill climber among doubles. *)
From Coq Require Import List Reals.
From Verif.Base Require Import Num F64Facts.
From Verif.Model Require Import MathUtils Geometry Sensor.
Import ListNotations.
Local Open Scope R_scope.
(** the double pose [p] is finite and its coordinates are [q] *)
Definition stands_at (p : pose F64) (q : pose R) : Prop :=
  (F_fin (px p) = true /\ F2R64 (px p) = px q) /\ (F_fin (py p) = true /\ F2R64 (py p) = py q) /\ (F_fin (pth p) = true /\ F2R64 (pth p) = pth q).
(** the six one-coordinate moves, with the steps halved [f] times: the moved coordinate is rounded once, the others stay *)
Definition rounded_moves (tr rot : R) (f : nat) (b : pose R) : list (pose R) :=
  let h := tr / 2 ^ f in let k := rot / 2 ^ f in
  [ mkPose (rnd (px b + h)) (py b) (pth b); mkPose (px b) (rnd (py b - h)) (pth b); mkPose (px b) (py b) (rnd (pth b + k));
    mkPose (rnd (px b - h)) (py b) (pth b); mkPose (px b) (rnd (py b + h)) (pth b); mkPose (px b) (py b) (rnd (pth b - k)) ].
