(** The walls of a scan and their directions (exact reals). *)
From Coq Require Import Reals ZArith List.
From Verif.Model Require Import Sensor.
From Verif.Spec Require Export DirectionSpec.
From Verif.Proofs Require Import HistProofs.
Import ListNotations.
Local Open Scope R_scope.

(** the wall between two consecutive points of a scan has a direction in [0, pi); the directions are sorted into 20 columns of
    9 degrees *)
Definition in_column (i : nat) (e : scan_point R * scan_point R) : bool :=
  if Rle_dec (INR i * (PI / 20)) (edge_angle e) then if Rlt_dec (edge_angle e) ((INR i + 1) * (PI / 20)) then true else false else false.
Definition walls (pts : list (scan_point R)) : list (scan_point R * scan_point R) := match pts with [] => [] | p :: l => edges p l end.
(** how many walls of the scan are in column [i] *)
Definition column_size (pts : list (scan_point R)) (i : nat) : nat := length (filter (in_column i) (walls pts)).
(** the first of the largest columns *)
Definition largest_column (pts : list (scan_point R)) (m : nat) : Prop :=
  (m < 20)%nat /\ (forall i, (i < 20)%nat -> (column_size pts i <= column_size pts m)%nat) /\
  (forall i, (i < m)%nat -> (column_size pts i < column_size pts m)%nat).
(** the end points of the walls of a scan that are not in a column of [top] walls *)
Fixpoint ends_outside (size : nat -> nat) (top : nat) (ws : list (scan_point R * scan_point R)) (kept : list (scan_point R)) : Prop :=
  match ws with
  | [] => kept = []
  | e :: ws => exists i rest, (i < 20)%nat /\ in_column i e = true /\ ends_outside size top ws rest /\ kept = (if Nat.eqb (size i) top then rest else snd e :: rest)
  end.
(** a pose moved by [d] metres in direction [a], without turning *)
Definition moved (p : pose R) (a d : R) : pose R := mkPose (px p + cos a * d) (py p + sin a * d) (pth p).
