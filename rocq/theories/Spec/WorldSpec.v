(** Reading histories of a world: who is subscribed, who is gone. *)
From Coq Require Import Reals List.
From Verif.Model Require Import Geometry Sensor World.
Import ListNotations.

Section WorldSpec.
  Context {D S : Type}.
  Definition pose_subscribers (h : list (wevent D S)) : list nat :=
    flat_map (fun e => match e with ESubPose id => [id] | _ => [] end) h.
  Definition map_subscribers (h : list (wevent D S)) : list nat :=
    flat_map (fun e => match e with ESubMap id => [id] | _ => [] end) h.
  Definition is_destroyed (h : list (wevent D S)) (id : nat) : bool :=
    existsb (fun e => match e with EDestroy k => Nat.eqb id k | _ => false end) h.
  Definition alive_in (h : list (wevent D S)) (ids : list nat) : list nat := filter (fun id => negb (is_destroyed h id)) ids.
  (** the odometry deltas of the scans of a history *)
  Definition scan_deltas (h : list (wevent D S)) : list (pose D) :=
    flat_map (fun e => match e with EScan s => [ts_delta s] | _ => [] end) h.
End WorldSpec.
(** sums of a list of reals and of pose components *)
Definition Rsum (l : list R) : R := fold_right Rplus 0%R l.
