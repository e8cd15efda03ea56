(** What a PGM file and a ROS occupancy grid are. *)
From Coq Require Import Ascii String Reals ZArith List.
From Flocq Require Import Core IEEE754.Binary.
From Verif.Base Require Import Num.
From Verif.Model Require Import Properties.
From Verif.Spec Require Import PropertiesSpec.
Import ListNotations.
Local Open Scope Z_scope.

(** A binary PGM image (http://netpbm.sourceforge.net/doc/pgm.html): "P5", the width, the height and the maximal value in
    decimal, separated by white space and followed by one white space character, then one byte per pixel. *)
Definition pgm_file (file : str) (w h maxval : Z) (pixels : list Z) : Prop :=
  exists sw sh sm body,
    decimal sw w /\ decimal sh h /\ decimal sm maxval /\
    file = lit "P5" ++ [nl] ++ sw ++ [nl] ++ sh ++ [nl] ++ sm ++ [nl] ++ body /\
    map (fun c => Z.of_N (N_of_ascii c)) body = pixels.

(** row-major: the element of row [r] (from 0) and column [c] (from 0) of a picture with rows of [w] elements *)
Definition at_row_col {A} (w : Z) (l : list A) (r c : Z) : option A := nth_error l (Z.to_nat (r * w + c)).

(** the cells of a w x h map whose lower left cell is minus the origin *)
Definition in_map (w h : Z) (origin c : Z * Z) : Prop :=
  - fst origin <= fst c < w - fst origin /\ - snd origin <= snd c < h - snd origin.

Local Open Scope R_scope.
(** [clamped o v]: [v] is the occupancy [o] bounded to [0, 1] (1 for a NaN) *)
Definition clamped (o : F64) (v : R) : Prop :=
  match o with
  | B754_infinity _ _ true => v = 0
  | B754_infinity _ _ false | B754_nan _ _ _ _ _ => v = 1
  | _ => v = Rmax 0 (Rmin 1 (F2R64 o))
  end.

(** the grey level of a cell: 127 for an unknown one (occupancy -1), else the level 255 for free .. 0 for occupied, truncated *)
Definition grey (o : F64) (p : Z) : Prop :=
  (deq o (dofZ (-1)) = true /\ p = 127%Z) \/
  (deq o (dofZ (-1)) = false /\ (0 <= p <= 255)%Z /\
   exists v, clamped o v /\ 255 * (1 - v) - 1 - bpow radix2 (-44) < IZR p <= 255 * (1 - v) + bpow radix2 (-44)).
(** the percentage of an occupancy in [0, 1], truncated *)
Definition percentage (o : F64) (e : Z) : Prop :=
  (0 <= e <= 100)%Z /\ 100 * F2R64 o - 1 - bpow radix2 (-47) < IZR e <= 100 * F2R64 o + bpow radix2 (-47).
