(** How far a robot went, in words of its odometry. *)
From Coq Require Import Reals List.
From Verif.Base Require Import Num.
From Verif.Model Require Import MathUtils Geometry Sensor World.
Import ListNotations.
Local Open Scope R_scope.
(** the odometry of the scans of a history *)
Definition deltas {S} (h : list (wevent R S)) : list (pose R) := flat_map (fun e => match e with EScan s => [ts_delta s] | _ => [] end) h.
(** the length of the way along one coordinate *)
Definition total (f : pose R -> R) (ds : list (pose R)) : R := fold_right (fun d acc => Rabs (f d) + acc) 0 ds.
(** more than 0.2 rad turned, or the ways along x and y are the sides of a rectangle with a diagonal above sqrt 0.5 *)
Definition travelled_far (ds : list (pose R)) : Prop :=
  1 / 2 < total (@px R) ds * total (@px R) ds + total (@py R) ds * total (@py R) ds \/ 1 / 5 < total (@pth R) ds.
