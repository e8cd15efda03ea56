(** What a rasterised line / rectangle is, independently of how the code computes it. *)
From Coq Require Import ZArith List.
From Verif.Base Require Import Num.
From Verif.Model Require Import Geometry.
Import ListNotations.
Local Open Scope Z_scope.

(** Two cells are equal or 8-neighbours. *)
Definition neighbours8 (a b : Z * Z) : Prop :=
  Z.abs (fst b - fst a) <= 1 /\ Z.abs (snd b - snd a) <= 1.

(** Consecutive elements of a list are related. *)
Definition chain {A} (P : A -> A -> Prop) (l : list A) : Prop :=
  forall i a b, nth_error l i = Some a -> nth_error l (S i) = Some b -> P a b.

Definition starts_with {A} (a : A) (l : list A) : Prop := nth_error l 0 = Some a.
Definition ends_with {A} (a : A) (l : list A) : Prop := nth_error l (length l - 1) = Some a.

(** [p] lies in the bounding box of [a] and [b]. *)
Definition in_box (a b p : Z * Z) : Prop :=
  (Z.min (fst a) (fst b) <= fst p <= Z.max (fst a) (fst b)) /\
  (Z.min (snd a) (snd b) <= snd p <= Z.max (snd a) (snd b)).

(** The length of the longer side of the segment. *)
Definition chebyshev (a b : Z * Z) : Z := Z.max (Z.abs (fst b - fst a)) (Z.abs (snd b - snd a)).

(** [p] is at most half a cell away, along the axis of the shorter side, from the ideal line a-b:
    |p_s - (a_s + (p_l - a_l) * d_s / d_l)| <= 1/2, multiplied by 2|d_l|. *)
Definition within_half_cell (a b p : Z * Z) : Prop :=
  let dx := fst b - fst a in
  let dy := snd b - snd a in
  if Z.abs dx <? Z.abs dy
  then 2 * Z.abs (dy * (fst p - fst a) - dx * (snd p - snd a)) <= Z.abs dy
  else 2 * Z.abs (dx * (snd p - snd a) - dy * (fst p - fst a)) <= Z.abs dx.

(** The [i]-th point of the line: moved by [i] cells along the longer side. *)
Definition moved_along_longer (a b : Z * Z) (i : Z) (p : Z * Z) : Prop :=
  let dx := fst b - fst a in
  let dy := snd b - snd a in
  if Z.abs dx <? Z.abs dy
  then snd p = snd a + Z.sgn dy * i
  else fst p = fst a + Z.sgn dx * i.

(** A minimal 8-connected digital line from [a] to [b]. *)
Definition digital_line (a b : Z * Z) (l : list (Z * Z)) : Prop :=
  Z.of_nat (length l) = chebyshev a b + 1 /\
  starts_with a l /\ ends_with b l /\
  chain neighbours8 l /\
  (forall i p, nth_error l i = Some p ->
     moved_along_longer a b (Z.of_nat i) p /\ within_half_cell a b p).

(** A connected path of cells from [a] to [b] inside their bounding box, with no more cells than a
    4-connected path has. *)
Definition cell_path (a b : Z * Z) (l : list (Z * Z)) : Prop :=
  starts_with a l /\ ends_with b l /\ chain neighbours8 l /\
  (forall p, In p l -> in_box a b p) /\ NoDup l /\
  Z.of_nat (length l) <= Z.abs (fst b - fst a) + Z.abs (snd b - snd a) + 1.

(** [l] lists every cell of the inclusive box [lb]..[rt] exactly once and nothing else. *)
Definition enumerates_box (lb rt : Z * Z) (l : list (Z * Z)) : Prop :=
  NoDup l /\
  forall p, In p l <-> (fst lb <= fst p <= fst rt /\ snd lb <= snd p <= snd rt).

(** a point with finite coordinates *)
Definition fin_point (p : point F64) : Prop := F_fin (ptx p) = true /\ F_fin (pty p) = true.
