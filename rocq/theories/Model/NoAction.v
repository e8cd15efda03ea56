(** Model of src/core/scan_matchers/no_action_scan_matcher.h: the scan matcher configured as "idle" (init_scan_matching.h:202-204). *)
From Coq Require Import ZArith.
From Verif.Base Require Import Outcome Num.
From Verif.Model Require Import Geometry Sensor.

Section NoAction.
  Context {D S M : Type} {ops : DOps D}.
  (** no_action_scan_matcher.h:7-9: no state of its own; grid_scan_matcher.h reset_state does nothing.  The estimator it is
      given is never called, its observers are never notified; neither is modelled. *)
  Definition no_action_reset (st : unit) : unit := st.
  (** no_action_scan_matcher.h:11-17: the correction is zero and the probability one *)
  Definition no_action_process (st : unit) (scan : S) (init_pose : pose D) (m : M) : outcome (D * pose D * unit) :=
    Ok (dofZ 1%Z, delta_zero, st).
End NoAction.
