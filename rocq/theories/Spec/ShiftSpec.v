(** The same run somewhere else: everything moved by a whole number of cells. *)
From Coq Require Import Reals ZArith List Bool.
From Verif.Base Require Import Outcome Num.
From Verif.Model Require Import MathUtils Geometry Grid Cells Sensor Matchers World Spe WholeSlam.
Import ListNotations.
Local Open Scope R_scope.

Section Moved.
  (** the side of a cell, and how many cells to the right and up everything is moved *)
  Variables (scale : R) (by_cells : coord).
  Definition moved_x (x : R) : R := x + IZR (cx by_cells) * scale.
  Definition moved_y (y : R) : R := y + IZR (cy by_cells) * scale.
  Definition moved_point (p : point R) : point R := (moved_x (ptx p), moved_y (pty p)).
  Definition moved_segment (s : segment R) : segment R := mkSegment (moved_point (sbeg s)) (moved_point (send s)).
  Definition moved_rect (r : rect R) : rect R := mkRect (moved_y (bot r)) (moved_y (top r)) (moved_x (left r)) (moved_x (right r)).
  Definition moved_pose (p : pose R) : pose R := mkPose (moved_x (px p)) (moved_y (py p)) (pth p).
  Definition moved_coord (c : coord) : coord := ((cx c + cx by_cells)%Z, (cy c + cy by_cells)%Z).
  (** an observation of a cell, made at the new place *)
  Definition moved_obs (a : aoo R) : aoo R := mkAoo (a_is_occ a) (a_occ a) (moved_point (a_obst a)) (a_quality a).

  (** a cell that was filled at the new place: it knows the same; GMapping's cells also store where, on average, they were hit *)
  Inductive moved_cell : acell R -> acell R -> Prop :=
  | mv_affine c : moved_cell (CAffine c) (CAffine c)
  | mv_mean c : moved_cell (CMean c) (CMean c)
  | mv_consistent c : moved_cell (CConsistent c) (CConsistent c)
  | mv_even c : moved_cell (CEven c) (CEven c)
  | mv_credibilist c : moved_cell (CCredibilist c) (CCredibilist c)
  | mv_gmapping c tries o : moved_cell (CGmapping (mkGm c 0 tries o)) (CGmapping (mkGm c 0 tries o))
  | mv_gmapping_hit c hits tries o : (0 < hits)%Z ->
      moved_cell (CGmapping (mkGm c hits tries o)) (CGmapping (mkGm c hits tries (moved_point o))).
  (** two unbounded maps, given by what their cells hold *)
  Definition moved_map (f g : coord -> acell R) : Prop := forall c, moved_cell (f c) (g (moved_coord c)).

  (** announcements of two worlds *)
  Inductive moved_note {M1 M2} (rel : M1 -> M2 -> Prop) : wnote R M1 -> wnote R M2 -> Prop :=
  | moved_pose_note id p : moved_note rel (NPose id p) (NPose id (moved_pose p))
  | moved_map_note id a b : rel a b -> moved_note rel (NMap id a) (NMap id b).
End Moved.

(** an unbounded map: an update changes the cell it names, by the rules of the cell, and no other (C05, C09) *)
Definition cellwise {M} (update : M -> coord -> aoo R -> outcome M) (cells : M -> coord -> acell R) : Prop :=
  forall m c a m', update m c a = Ok m' ->
    cells m' c = acell_upd (cells m c) a /\ forall c', c' <> c -> cells m' c' = cells m c'.

(** the scan matchers a program can configure that try one pose after another, as they are created: brute force, hill climbing,
    Monte-Carlo (with any random generator) *)
Inductive new_enumerator : forall E : Type, enumerator R E -> E -> Prop :=
| new_brute_force cfg : new_enumerator (bf_state R) (bf_enum cfg) (bf_new cfg)
| new_hill_climbing max_failed tr rot : new_enumerator (frl R) frl_enum (frl_new max_failed tr rot)
| new_monte_carlo G (sample : R -> R -> G -> pose R * G) seed tr rot max_failed max_poses :
    new_enumerator (gauss R G) (gauss_enum sample) (gauss_new seed tr rot max_failed max_poses).
(** an unbounded map as scan matchers see it: all cells exist; [size] gives its width, height and origin *)
Definition seen {M} (scale : R) (size : M -> Z * Z * coord) (cells : M -> coord -> acell R) (m : M) : omap R (acell R) :=
  mkOmap (fst (fst (size m))) (snd (fst (size m))) (snd (size m)) scale (fun _ => true) (fun c => Ok (cells m c)).
