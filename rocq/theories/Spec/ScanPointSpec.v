(** Places of scan points. *)
From Coq Require Import Reals ZArith List.
From Flocq Require Import Core IEEE754.Binary.
From Verif.Base Require Import Outcome Num.
From Verif.Model Require Import Geometry Sensor.
Local Open Scope R_scope.

(** the direction of the point (x, y), as std::atan2(y, x) gives it *)
Definition real_atan2 (y x : R) : R :=
  if Rlt_dec 0 x then atan (y / x)
  else if Rlt_dec x 0 then (if Rle_dec 0 y then atan (y / x) + PI else atan (y / x) - PI)
  else if Rlt_dec 0 y then PI / 2 else if Rlt_dec y 0 then - (PI / 2) else 0.

(** the place of a scan point relative to the scanner *)
Definition place (s : scan_point R) : point R :=
  if sp_polar s then (sp_u s * cos (sp_v s), sp_u s * sin (sp_v s)) else (sp_u s, sp_v s).
Definition shift (p q : point R) : point R := (fst p + fst q, snd p + snd q).
(** [q] turned by [a] around the origin *)
Definition turn (a : R) (q : point R) : point R :=
  (fst q * cos a - snd q * sin a, fst q * sin a + snd q * cos a).

(** the same number as far as a computation shows it: equal values (zeros of any sign), the same infinity, or both NaN *)
Definition same (a b : F64) : Prop :=
  (F_fin a = true /\ F_fin b = true /\ F2R64 a = F2R64 b) \/
  (F_fin a = false /\ a = b) \/ (disnan a = true /\ disnan b = true).
