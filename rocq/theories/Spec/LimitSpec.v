(** How far a GMapping particle went since its last scan matching. *)
From Coq Require Import Reals List Bool.
From Verif.Base Require Import Outcome Num.
From Verif.Model Require Import MathUtils Geometry Sensor World ParticleFilter Gmapping.
From Verif.Spec Require Import ParticleScanSpec TravelSpec.
Import ListNotations.
Local Open Scope R_scope.

(** the length of the path and the angle turned *)
Definition driven (ds : list (pose R)) : R := fold_right (fun d acc => sqrt (px d * px d + py d * py d) + acc) 0 ds.
Definition turned (ds : list (pose R)) : R := total (@pth R) ds.

Section Since.
  Context {S M SM G RV : Type} (rv_sample : RV -> G -> pose R * RV * G) (rv_copy : RV -> RV) (rv_zero : RV)
    (sm : SM -> S -> pose R -> M -> outcome (R * pose R * SM)) (adder : M -> pose R -> S -> R -> R -> outcome M).
  Variables (guess lim : RV).
  Local Notation gf := (gfilter R M SM G RV).
  Local Notation ptrs f := (pf_ptrs (gf_pf f)).
  Local Notation heap f := (pf_heap (gf_pf f)).
  (** a scan is handled *)
  Definition scans (f : gf) (s : tr_scan R (S * (nat -> R))) (f' : gf) : Prop :=
    exists o o' notes, gf_run cos sin rv_sample rv_copy rv_zero sm adder o f [EScan s] = Ok (o', f', notes).
  (** the scan is matched for the particle behind [p]: after its odometry the particle is not below its limits (C73: the matcher
      is asked for exactly these particles) *)
  Definition asked (f : gf) (s : tr_scan R (S * (nat -> R))) (p : nat) : Prop :=
    exists x, nth_error (heap f) p = Some x /\ ~ short_way (gp_update_robot_pose cos sin (ts_delta s) x).
  Definition is_master (f : gf) (p : nat) : bool := match nth_error (heap f) p with Some x => gp_master x | None => false end.
  (** [q] is a copy of [p]: equal but for the weight and the marks of a master *)
  Definition copy (f : gf) (p q : nat) : Prop :=
    exists x y, nth_error (heap f) p = Some x /\ nth_error (heap f) q = Some y /\
      gp_pose y = gp_pose x /\ gp_raw y = gp_raw x /\ gp_first y = gp_first x /\ gp_engine y = gp_engine x /\ gp_map y = gp_map x /\
      gp_since y = gp_since x /\ gp_next y = gp_next x /\
      (gp_master x = false -> gp_master y = false -> gp_guess y = rv_copy (gp_guess x) /\ gp_lim y = rv_copy (gp_lim x)).

  (** [since f p ds m]: in the reachable filter [f] the particle behind [p] went [ds] since its last matching (since the
      construction if there was none), where a copy made by resampling inherits the way of the particle it was copied from;
      [m]: it, or a particle it descends from, was once the master *)
  Inductive since : gf -> nat -> list (pose R) -> bool -> Prop :=
  | since_new seeds m0 k0 n f p : gf_new rv_sample rv_copy rv_zero guess lim seeds m0 k0 n = Ok f -> In p (ptrs f) -> since f p [] (is_master f p)
  | since_asked f s f' p ds m : since f p ds m -> In p (ptrs f) -> scans f s f' -> asked f s p -> since f' p [] (m || is_master f' p)
  | since_passed f s f' p ds m : since f p ds m -> In p (ptrs f) -> scans f s f' -> ~ asked f s p -> since f' p (ds ++ [ts_delta s]) (m || is_master f' p)
  | since_copy f s f' p q ds m : since f' p ds m -> In p (ptrs f) -> scans f s f' -> In q (ptrs f') -> ~ In q (ptrs f) -> copy f' p q -> since f' q ds (m || is_master f' q).
End Since.
