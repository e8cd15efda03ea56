(** Directions of the edges of a scan, the dominating one, and the moves along it. *)
From Coq Require Import Reals ZArith List Bool.
From Verif.Base Require Import Num.
From Verif.Model Require Import Geometry Sensor.
From Verif.Spec Require Import CellSpec.
Import ListNotations.
Local Open Scope R_scope.

(** the consecutive pairs of a scan *)
Fixpoint edges {A} (prev : A) (l : list A) : list (A * A) :=
  match l with [] => [] | x :: l => (prev, x) :: edges x l end.

(** where a scan point is, in the frame of the scanner *)
Definition at_x (p : scan_point R) : R := if sp_polar p then sp_u p * cos (sp_v p) else sp_u p.
Definition at_y (p : scan_point R) : R := if sp_polar p then sp_u p * sin (sp_v p) else sp_v p.

(** [heads e a]: the line through the two points has the direction [a] (a line has one direction in [0, pi)); an edge
    without length counts as horizontal *)
Definition heads (e : scan_point R * scan_point R) (a : R) : Prop :=
  let dx := at_x (snd e) - at_x (fst e) in let dy := at_y (snd e) - at_y (fst e) in
  0 <= a < PI /\ (exists d, dx = d * cos a /\ dy = d * sin a) /\ (dx = 0 /\ dy = 0 -> a = 0).

(** the angles of [angles] that fall into the [i]-th of [n] equal parts of [0, pi) *)
Definition column (n i : nat) (angles : list R) : list R :=
  filter (fun a => R_le (INR i * (PI / INR n)) a && R_lt a ((INR i + 1) * (PI / INR n)))%bool angles.

(** [phi] is the mean of the fullest part (of the first one if there are several) *)
Definition dominating (n : nat) (angles : list R) (phi : R) : Prop :=
  exists i, (i < n)%nat /\ column n i angles <> [] /\
    (forall j, (j < n)%nat -> (length (column n j angles) <= length (column n i angles))%nat) /\
    (forall j, (j < i)%nat -> (length (column n j angles) < length (column n i angles))%nat) /\
    phi = Rmean (column n i angles).

(** the six moves of the hill climber in a frame turned by [phi]: along it, across it, and the rotation *)
Definition turned_moves (phi tr rot : R) (f : nat) (b : pose R) : list (pose R) :=
  let h := (tr / 2 ^ f)%R in let k := (rot / 2 ^ f)%R in
  [ mkPose (px b + h * cos phi) (py b + h * sin phi) (pth b); mkPose (px b + h * sin phi) (py b - h * cos phi) (pth b);
    mkPose (px b) (py b) (pth b + k);
    mkPose (px b - h * cos phi) (py b - h * sin phi) (pth b); mkPose (px b - h * sin phi) (py b + h * cos phi) (pth b);
    mkPose (px b) (py b) (pth b - k) ]%R.
