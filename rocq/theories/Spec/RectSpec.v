(** Rectangles as point sets. *)
From Coq Require Import Reals List.
From Verif.Model Require Import Geometry.
Local Open Scope R_scope.

Definition proper (r : rect R) : Prop := bot r <= top r /\ left r <= right r.
Definition in_rect (r : rect R) (p : R * R) : Prop := left r <= fst p <= right r /\ bot r <= snd p <= top r.
(** interior points *)
Definition inside (r : rect R) (p : R * R) : Prop := left r < fst p < right r /\ bot r < snd p < top r.
Definition meet (a b : rect R) : Prop := exists p, in_rect a p /\ in_rect b p.
(** [a] sticks out of [b] on both sides horizontally while [b] sticks out of [a] on both sides vertically *)
Definition crosses (a b : rect R) : Prop := left a < left b /\ right b < right a /\ bot b < bot a /\ top a < top b.
Definition area_of (r : rect R) : R := (top r - bot r) * (right r - left r).
