(** What "a recorded scan / pose is the one that is loaded" means. *)
From Coq Require Import Reals ZArith List Bool.
From Flocq Require Import Core IEEE754.BinarySingleNaN IEEE754.Binary IEEE754.Bits.
From Verif.Base Require Import Outcome Num F64Facts.
From Verif.Model Require Import Geometry Sensor.
Import ListNotations.
Local Open Scope R_scope.

(** [d] is a decimal number of at most six digits *)
Definition six_digits (d : R) : Prop :=
  exists m e : Z, (Z.abs m < 1000000)%Z /\
    d = match e with Z0 => IZR m | Zpos p => IZR m * 10 ^ (Pos.to_nat p) | Zneg p => IZR m / 10 ^ (Pos.to_nat p) end.

(** the double [x] is what one gets by writing down some decimal number of at most six digits *)
Definition six_digit_double (x : F64) : Prop := exists d, six_digits d /\ F2R64 x = rnd d.

(** [y] is [x] up to one unit in the fifth decimal place of the relative error *)
Definition about (x y : F64) : Prop :=
  F_fin y = true /\ Bsign 53 1024 y = Bsign 53 1024 x /\ Rabs (F2R64 y - F2R64 x) <= / 100000 * Rabs (F2R64 x).

(** the distance and the angle of a scan point are numbers *)
Definition sp_finite (datan2 : F64 -> F64 -> F64) (p : scan_point F64) : Prop :=
  F_fin (sp_range p) = true /\ F_fin (sp_angle datan2 p) = true.

(** [q] is the recorded point [p]: same flag, about the same distance and angle, in polar form, default quality *)
Definition point_about (datan2 : F64 -> F64 -> F64) (p q : scan_point F64) : Prop :=
  sp_occ q = sp_occ p /\ about (sp_range p) (sp_range q) /\ about (sp_angle datan2 p) (sp_angle datan2 q) /\
  sp_polar q = true /\ sp_factor q = dofZ 1.

(** the points a text file can carry without loss: polar, of default quality, with six-digit numbers *)
Definition exact_point (p : scan_point F64) : Prop :=
  sp_polar p = true /\ sp_factor p = dofZ 1 /\ six_digit_double (sp_u p) /\ six_digit_double (sp_v p).

(** the three coordinates of a pose are numbers *)
Definition pose_finite (p : pose F64) : Prop := F_fin (px p) = true /\ F_fin (py p) = true /\ F_fin (pth p) = true.
