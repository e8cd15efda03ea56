(** Model of src/core/random_utils.h, of RobotPoseDeltaRV (src/core/states/robot_pose.h:63-94) and of GMappingParams
    (src/slams/gmapping/gmapping_world.h:15-33).  The random engine [G] is arbitrary; what the distributions of the standard
    library take from it is a parameter. *)
From Coq Require Import ZArith.
From Verif.Base Require Import Outcome Num.
From Verif.Model Require Import MathUtils Geometry Sensor.

Section RandomVars.
  Context {D G : Type} {ops : DOps D}.
  (** std::uniform_real_distribution{a, b}: one value *)
  Variable uniform : D -> D -> G -> D * G.
  (** std::normal_distribution takes its standard normal values in pairs (bits/random.tcc, polar method): it returns the first
      and keeps the second for the next call *)
  Variable polar : G -> D * D * G.

  (** random_utils.h:16-35 [GaussianRV1D] (mean, deviation, the value its distribution keeps), 37-56 [UniformRV1D] *)
  Inductive rv1 := Gauss (mean sd : D) (saved : option D) | Unif (from to : D).
  (** random_utils.h:22-24, 43-45; a normal value is z * stddev + mean *)
  Definition rv1_sample (r : rv1) (g : G) : D * rv1 * G :=
    match r with
    | Gauss mean sd (Some z) => (dadd (dmul z sd) mean, Gauss mean sd None, g)
    | Gauss mean sd None => let '(z1, z2, g) := polar g in (dadd (dmul z1 sd) mean, Gauss mean sd (Some z2), g)
    | Unif from to => let '(v, g) := uniform from to g in (v, r, g)
    end.
  (** random_utils.h:26-28, 47-49: a new variable with the parameters of the old; the value kept by the distribution is not copied *)
  Definition rv1_clone (r : rv1) : rv1 :=
    match r with Gauss mean sd _ => Gauss mean sd None | Unif from to => Unif from to end.

  (** robot_pose.h:93 *)
  Record rv3 := mkRV3 { rvx : rv1; rvy : rv1; rvth : rv1 }.
  (** robot_pose.h:87-90: the values are taken in the order x, y, theta (braced initialisation) *)
  Definition rv3_sample (r : rv3) (g : G) : pose D * rv3 * G :=
    let '(x, rx, g) := rv1_sample (rvx r) g in
    let '(y, ry, g) := rv1_sample (rvy r) g in
    let '(th, rth, g) := rv1_sample (rvth r) g in
    (mkPose x y th, mkRV3 rx ry rth, g).
  (** robot_pose.h:71-81 *)
  Definition rv3_copy (r : rv3) : rv3 := mkRV3 (rv1_clone (rvx r)) (rv1_clone (rvy r)) (rv1_clone (rvth r)).

  (** gmapping_world.h:24-33 *)
  Definition pose_guess_rv (mean_xy sigma_xy mean_th sigma_th : D) : rv3 :=
    rv3_copy (mkRV3 (Gauss mean_xy sigma_xy None) (Gauss mean_xy sigma_xy None) (Gauss mean_th sigma_th None)).
  Definition next_sm_delta_rv (min_xy max_xy min_th max_th : D) : rv3 :=
    rv3_copy (mkRV3 (Unif min_xy max_xy) (Unif min_xy max_xy) (Unif min_th max_th)).
  (** gmapping_world.h:106-109 (the noise and the limits of a master) *)
  Definition master_rv : rv3 :=
    rv3_copy (mkRV3 (Gauss (dofZ 0) (dofZ 0) None) (Gauss (dofZ 0) (dofZ 0) None) (Gauss (dofZ 0) (dofZ 0) None)).
End RandomVars.
Arguments rv1 D : clear implicits.
Arguments rv3 D : clear implicits.
