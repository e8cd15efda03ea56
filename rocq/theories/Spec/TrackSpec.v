(** Dead reckoning: the poses an odometry describes, and a map drawn along them. *)
From Coq Require Import ZArith List.
From Flocq Require Import Core IEEE754.BinarySingleNaN IEEE754.Binary IEEE754.Bits.
From Verif.Base Require Import Outcome Num.
From Verif.Model Require Import Geometry Sensor World.
Import ListNotations.
Local Open Scope outcome_scope.

Section Track.
  Context {D S M : Type} {ops : DOps D}.
  Implicit Types (p : pose D) (h : list (wevent D S)).
  (** the scans of a history, each with the pose the odometry gives it: the pose before plus the scan's delta *)
  Fixpoint track p h : list (pose D * S) :=
    match h with
    | [] => []
    | EScan s :: h => let p := pose_add p (ts_delta s) in (p, ts_scan s) :: track p h
    | _ :: h => track p h
    end.
  (** the map obtained by adding these scans at these poses, in order, all with the same quality and margin *)
  Fixpoint drawn (adder : M -> pose D -> S -> D -> D -> outcome M) (quality margin : D) (m : M) (l : list (pose D * S)) : outcome M :=
    match l with
    | [] => Ok m
    | (p, s) :: l => m <- adder m p s quality margin ;; drawn adder quality margin m l
    end.
  (** the same history with other qualities written in its scans *)
  Definition same_but_quality (e e' : wevent D S) : Prop :=
    match e, e' with
    | EScan s, EScan s' => ts_delta s = ts_delta s' /\ ts_scan s = ts_scan s'
    | _, _ => e = e'
    end.
End Track.

(** a double that is not the negative zero *)
Definition not_minus_zero (x : F64) : Prop := x <> B754_zero 53%Z 1024%Z true.
Definition pose_without_minus_zero (p : pose F64) : Prop := not_minus_zero (px p) /\ not_minus_zero (py p) /\ not_minus_zero (pth p).
