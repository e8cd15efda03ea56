(** Cells as half-open squares of the plane. *)
From Coq Require Import Reals ZArith.
Local Open Scope R_scope.

(** world point [p] lies in the half-open square of side [s] of the cell [c] *)
Definition in_cell (s : R) (c : Z * Z) (p : R * R) : Prop :=
  s * IZR (fst c) <= fst p < s * (IZR (fst c) + 1) /\
  s * IZR (snd c) <= snd p < s * (IZR (snd c) + 1).

(** the coordinates fit in C++ [int] *)
Definition int_coord (c : Z * Z) : Prop :=
  (- 2 ^ 31 <= fst c <= 2 ^ 31 - 1)%Z /\ (- 2 ^ 31 <= snd c <= 2 ^ 31 - 1)%Z.

(** the square of [c] has a point in common with the closed rectangle [l,r] x [b,t] *)
Definition cell_meets (s : R) (c : Z * Z) (b t l r : R) : Prop :=
  exists p, in_cell s c p /\ l <= fst p <= r /\ b <= snd p <= t.
