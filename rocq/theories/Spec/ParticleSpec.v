(** Resampling: the share of [0, 1) a particle owns. *)
From Coq Require Import Reals List.
From Verif.Spec Require Import WorldSpec.
Import ListNotations.
Local Open Scope R_scope.

(** the sample falls in the interval of particle [i]: between the weights before it and those up to it *)
Definition owns (ws : list R) (i : nat) (s : R) : Prop := Rsum (firstn i ws) <= s < Rsum (firstn (S i) ws).
(** effective number of particles *)
Definition n_eff (ws : list R) : R := / Rsum (map (fun w => w * w) ws).
