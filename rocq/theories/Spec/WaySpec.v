(** How far a robot went, in words of its odometry, in any arithmetic. *)
From Coq Require Import ZArith List.
From Verif.Base Require Import Num.
From Verif.Model Require Import MathUtils Geometry Sensor World.
Import ListNotations.

Section Way.
  Context {D : Type} {ops : DOps D}.
  (** the odometry of the scans of a history *)
  Definition odometry {S} (h : list (wevent D S)) : list (pose D) := flat_map (fun e => match e with EScan s => [ts_delta s] | _ => [] end) h.
  (** the ways along the coordinates, added up step by step *)
  Definition way (ds : list (pose D)) : pose D :=
    fold_left (fun w d => mkPose (dadd (px w) (dabs (px d))) (dadd (py w) (dabs (py d))) (dadd (pth w) (dabs (pth d)))) ds (mkPose (dofZ 0) (dofZ 0) (dofZ 0)).
  (** at most 0.2 rad turned, and the ways along x and y are the sides of a rectangle with a diagonal of at most sqrt 0.5 *)
  Definition short (ds : list (pose D)) : bool :=
    (dle (dadd (dmul (px (way ds)) (px (way ds))) (dmul (py (way ds)) (py (way ds)))) (dlit 1 2) && dle (pth (way ds)) (dlit 1 5))%bool.
End Way.
