(** Vocabulary of the laser scan generator's properties. *)
From Coq Require Import ZArith List Bool.
From Verif.Base Require Import Outcome Num.
From Verif.Model Require Import MathUtils Geometry Sensor Grid AreaEstimator.
Import ListNotations.

Section S.
  Context {D : Type} {ops : DOps D}.
  (** the k-th of the angles a, a + inc, (a + inc) + inc, ... *)
  Fixpoint step_from (a inc : D) (k : nat) : D := match k with O => a | S k => dadd (step_from a inc k) inc end.
  (** angle [a] is in the sector of half-width [h] and less than a turn after its start *)
  Definition in_sector (mpi h a : D) : bool := dle a h && negb (dle (dmul (dofZ 2) mpi) (dadd h a)).
  (** the cell [c] gives no point to a beam of direction [dir]: its occupancy is below the threshold or the beam's line touches
      its boundary at one point only *)
  Definition passed_over (scale : D) (occ : coord -> outcome D) (pose : pose D) (thr : D) (dir : point D) (c : coord) : Prop :=
    exists o, occ c = Ok o /\
      (dlt o thr = true \/
       exists b i, world_cell_bounds scale c = Ok b /\ ray_intersections b (mkRay (pose_point pose) dir) = Ok [i]).
End S.
(** the values present, in order *)
Fixpoint somes {A} (l : list (option A)) : list A :=
  match l with [] => [] | Some x :: l => x :: somes l | None :: l => somes l end.
