(** Notions used in the binary64 statements about covered cells and area estimates (C04, C30). *)
From Coq Require Import Reals.
From Verif.Base Require Import Num.
From Verif.Model Require Import Geometry.

(** a rectangle with finite sides *)
Definition fin_rect (r : rect F64) : Prop :=
  F_fin (left r) = true /\ F_fin (right r) = true /\ F_fin (bot r) = true /\ F_fin (top r) = true.

(** [p] lies in the rectangle [r], sides included *)
Definition in_rect (r : rect F64) (p : point F64) : Prop :=
  (F2R64 (left r) <= F2R64 (ptx p) <= F2R64 (right r))%R /\ (F2R64 (bot r) <= F2R64 (pty p) <= F2R64 (top r))%R.
