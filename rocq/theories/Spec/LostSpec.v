(** Particle weights that are not numbers. *)
From Coq Require Import Reals List.
From Verif.Base Require Import Outcome Num.
From Verif.Model Require Import Geometry Sensor ParticleFilter Gmapping.
Import ListNotations.

Section Lost.
  Context {D M SM G RV : Type} {ops : DOps D}.
  (** the particles of a filter, in order *)
  Definition particles_of (f : gfilter D M SM G RV) : outcome (list (gparticle D G RV)) := objects (pf_heap (gf_pf f)) (pf_ptrs (gf_pf f)).
  (** no particle's weight is a number *)
  Definition lost (f : gfilter D M SM G RV) : Prop :=
    exists xs, particles_of f = Ok xs /\ xs <> [] /\ Forall (fun x => disnan (gp_weight x) = true) xs.
End Lost.
