(** A search axis in doubles. *)
From Coq Require Import Reals ZArith List.
From Flocq Require Import Core.
From Verif.Base Require Import Num F64Facts.
Import ListNotations.
Local Open Scope R_scope.

(** the distance from |x| to the next larger double *)
Definition spacing (x : R) : R := ulp radix2 fexp64 x.
(** an axis whose step is at least the spacing of doubles at both limits (all within 2^1000) *)
Record sane_axis (from to step : F64) : Prop := {
  sane_finite : F_fin from = true /\ F_fin to = true /\ F_fin step = true;
  sane_size : Rabs (F2R64 from) <= bpow radix2 1000 /\ Rabs (F2R64 to) <= bpow radix2 1000 /\ 0 < F2R64 step <= bpow radix2 1000;
  sane_step : spacing (F2R64 from) <= F2R64 step /\ spacing (F2R64 to) <= F2R64 step
}.
(** strictly increasing *)
Definition increasing (l : list F64) : Prop := forall i j a b, (i < j)%nat -> nth_error l i = Some a -> nth_error l j = Some b -> F2R64 a < F2R64 b.
(** the values keep to multiples of the step: the k-th is off by at most k half spacings at the largest value of the axis *)
Definition keeps_grid (from to step : F64) (l : list F64) : Prop := forall k a, nth_error l k = Some a ->
  F_fin a = true /\
  Rabs (F2R64 a - (F2R64 from + INR k * F2R64 step)) <= INR k * (spacing (Rmax (Rabs (F2R64 from)) (Rabs (F2R64 to)) + F2R64 step) / 2).
