(** Who listens to a run, and what one listener hears. *)
From Coq Require Import ZArith List Bool.
From Verif.Model Require Import Geometry Sensor Matchers World WatchedRun.
Import ListNotations.

Section WatchedSpec.
  Context {D S M : Type}.
  (** the scans of a history *)
  Definition scans_in (h : list (wevent D S)) : list (tr_scan D S) := flat_map (fun e => match e with EScan s => [s] | _ => [] end) h.
  Definition watched_scans (h : list (wevent' D S)) : list (tr_scan D S) :=
    flat_map (fun e => match e with WWorld (EScan s) => [s] | _ => [] end) h.

  (** the history without everyone but the world's observer [i] *)
  Definition just_world_observer (i : nat) (h : list (wevent D S)) : list (wevent D S) :=
    filter (fun e => match e with ESubPose k | ESubMap k | EDestroy k => Nat.eqb k i | EScan _ => true end) h.
  (** the history without everyone but the matcher's observer [i] *)
  Definition just_matcher_observer (i : Z) (h : list (wevent' D S)) : list (wevent' D S) :=
    filter (fun e => match e with WAddSm k | WRemoveSm k | WEndSm k => Z.eqb k i | WWorld (EScan _) => true | WWorld _ => false end) h.
  (** the calls of the world's observer [i] *)
  Definition heard (i : nat) (n : list (wnote D M)) : list (wnote D M) :=
    filter (fun x => match x with NPose k _ | NMap k _ => Nat.eqb k i end) n.
End WatchedSpec.
