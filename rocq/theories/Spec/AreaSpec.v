(** Areas of the parts into which a straight line divides a rectangle, as integrals (independent of the estimator's code). *)
From Coq Require Import Reals.
From Coquelicot Require Import Coquelicot.
From Verif.Model Require Import Geometry.
Local Open Scope R_scope.

Definition width (c : rect R) : R := right c - left c.
Definition height (c : rect R) : R := top c - bot c.
Definition full_area (c : rect R) : R := width c * height c.
(** a square cell of positive size *)
Definition square_cell (c : rect R) : Prop := 0 < width c /\ width c = height c.

(** the part of the cell below the line y = m x + k: the integral over x of the height of the column below the line *)
Definition area_below (c : rect R) (m k : R) : R :=
  RInt (fun x => Rmin (height c) (Rmax 0 (m * x + k - bot c))) (left c) (right c).
(** the part of the cell to the left of the line x = m y + k *)
Definition area_left (c : rect R) (m k : R) : R :=
  RInt (fun y => Rmin (width c) (Rmax 0 (m * y + k - left c))) (bot c) (top c).

(** [A] is the area of the part of the cell [c] on one side of the line through the points [p] and [q] *)
Definition cut_area (c : rect R) (p q : point R) (A : R) : Prop :=
  (exists m k, pty p = m * ptx p + k /\ pty q = m * ptx q + k /\ ptx p <> ptx q /\ A = area_below c m k) \/
  (exists m k, ptx p = m * pty p + k /\ ptx q = m * pty q + k /\ pty p <> pty q /\ A = area_left c m k).

(** scalar product of (x - p) with the direction p - b in which a beam from [b] to [p] travels: positive beyond the beam's end *)
Definition ahead (b p x : point R) : R :=
  (ptx x - ptx p) * (ptx p - ptx b) + (pty x - pty p) * (pty p - pty b).
(** [A] is the area of the part of the cell [c] that lies beyond the end [p] of the beam coming from [b]: the points [x] with
    [0 < ahead b p x] *)
Definition area_beyond (c : rect R) (b p : point R) (A : R) : Prop :=
  let nx := ptx p - ptx b in
  let ny := pty p - pty b in
  let below := area_below c (- nx / ny) (pty p + nx / ny * ptx p) in     (* nx (x - px) + ny (y - py) = 0 *)
  let leftp := area_left c (- ny / nx) (ptx p + ny / nx * pty p) in
  (0 < ny /\ A = full_area c - below) \/ (ny < 0 /\ A = below) \/
  (0 < nx /\ A = full_area c - leftp) \/ (nx < 0 /\ A = leftp).
