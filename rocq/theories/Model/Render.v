(** Model of src/utils/map_dumpers.h (PGM images) and src/ros/occupancy_grid_publisher.h (ROS occupancy grids).
    A map is its size, its origin and the function that reads the occupancy of a cell. *)
From Coq Require Import Ascii String ZArith List Bool.
From Flocq Require Import IEEE754.BinarySingleNaN IEEE754.Binary IEEE754.Bits.
From Verif.Base Require Import Outcome Num.
From Verif.Model Require Import MathUtils Geometry Properties.
Import ListNotations.
Local Open Scope Z_scope.
Local Open Scope outcome_scope.

(** [for (i = i; i < hi; ++i) out.append(body(i))]: the fuel bounds the iterations *)
Fixpoint for_up {A} (fuel : nat) (i hi : Z) (body : Z -> outcome (list A)) : outcome (list A) :=
  match fuel with
  | O => OutOfFuel
  | S fuel => if i <? hi then a <- body i ;; r <- for_up fuel (i + 1) hi body ;; Ok (a ++ r) else Ok []
  end.
(** [for (i = i; lo <= i; --i) out.append(body(i))] *)
Fixpoint for_down {A} (fuel : nat) (i lo : Z) (body : Z -> outcome (list A)) : outcome (list A) :=
  match fuel with
  | O => OutOfFuel
  | S fuel => if lo <=? i then a <- body i ;; r <- for_down fuel (i - 1) lo body ;; Ok (a ++ r) else Ok []
  end.

(** std::to_string of an int or unsigned *)
Fixpoint digits_str (fuel : nat) (z : Z) : str :=
  match fuel with
  | O => []
  | S fuel => (if z <? 10 then [] else digits_str fuel (z / 10)) ++ [ascii_of_N (Z.to_N (48 + z mod 10))]
  end.
Definition to_string (z : Z) : str :=
  if z <? 0 then "-"%char :: digits_str (S (Z.to_nat (- z))) (- z) else digits_str (S (Z.to_nat z)) z.

Section Pgm.
  Context {D : Type} {ops : DOps D}.
  (** map.occupancy(area_id), grid_map.h:48-50 *)
  Variable occ : coord -> outcome D.

  (** map_dumpers.h:81-82: the intensity; the conversion to unsigned char is UB when the value does not fit *)
  Definition pgm_value (o : D) : D :=
    dsub (dofZ 1) (if deq o (dofZ (-1)) then dlit 1 2 else bound_value (dofZ 0) o (dofZ 1)).
  Definition pgm_intensity (o : D) : outcome Z :=
    match dtrunc (dmul (dofZ 255) (pgm_value o)) with
    | Some v => if (0 <=? v) && (v <? 256) then Ok v else UB
    | None => UB
    end.
  (** map_dumpers.h:24-32, 69-71: magic, width, height, maximal value, each followed by a new line *)
  Definition pgm_header (w h : Z) : str :=
    lit "P5" ++ [nl] ++ to_string w ++ [nl] ++ to_string h ++ [nl] ++ to_string 255 ++ [nl].
  (** map_dumpers.h:78-87: the rows from the top one down, each from left to right *)
  Definition pgm_pixels (w h : Z) (origin : coord) : outcome (list Z) :=
    for_down (S (Z.to_nat h)) (h - cy origin - 1) (- cy origin) (fun y =>
      for_up (S (Z.to_nat w)) (- cx origin) (w - cx origin) (fun x =>
        o <- occ (x, y) ;; v <- pgm_intensity o ;; Ok [v])).
  (** map_dumpers.h:65-89; the product in the final assert is an int *)
  Definition dump_map (w h : Z) (origin : coord) : outcome str :=
    px <- pgm_pixels w h origin ;;
    _ <- (if in_int (w * h) then Ok tt else UB) ;;
    _ <- assert_ (Z.of_nat (length px) =? w * h) ;;
    Ok (pgm_header w h ++ map (fun v => ascii_of_N (Z.to_N v)) px).

  (** occupancy_grid_publisher.h:42-44: [int cell_value = value == -1 ? -1 : value * 100]; push_back keeps the low 8 bits
      (nav_msgs/OccupancyGrid: int8[] data) *)
  Definition int8 (z : Z) : Z := let m := z mod 2 ^ 8 in if m <? 2 ^ 7 then m else m - 2 ^ 8.
  Definition grid_entry (o : D) : outcome Z :=
    v <- (if deq o (dofZ (-1)) then Ok (-1) else trunc_int (dmul o (dofZ 100))) ;; Ok (int8 v).
  (** occupancy_grid_publisher.h:37-46 *)
  Definition grid_data (w h : Z) (origin : coord) : outcome (list Z) :=
    for_up (S (Z.to_nat h)) (- cy origin) (h - cy origin) (fun y =>
      for_up (S (Z.to_nat w)) (- cx origin) (w - cx origin) (fun x =>
        o <- occ (x, y) ;; v <- grid_entry o ;; Ok [v])).
End Pgm.

(** map_dumpers.h:57-58, 90-92: the i-th dump goes to <base>_<i>.pgm *)
Definition pgm_file_name (base : str) (id : Z) : str := (base ++ lit "_") ++ to_string id ++ lit ".pgm".
(** map_dumpers.h:52-63, 91: the dumper as an observer; its state is _id (an unsigned long long), the file system maps paths to
    contents (a file that cannot be opened is not modelled), opening truncates *)
Definition dumper_update {D} `{DOps D} (base : str) (occ : coord -> outcome D) (w h : Z) (origin : coord) (st : Z * (str -> option str)) : outcome (Z * (str -> option str)) :=
  let (id, fs) := st in
  file <- dump_map occ w h origin ;;
  let name := pgm_file_name base id in
  Ok ((id + 1) mod 2 ^ 64, fun f => if str_eqb f name then Some file else fs f).

(** *** The meta data: nav_msgs/MapMetaData has a float32 resolution and float64 origin coordinates *)
Definition F32 := binary32.
(** conversion of a double to float (round to nearest even) *)
Definition f64_to_f32 (x : F64) : F32 :=
  match x with
  | B754_zero _ _ s => B754_zero 24 128 s
  | B754_infinity _ _ s => B754_infinity 24 128 s
  | B754_nan _ _ _ _ _ => proj1_sig default_nan_pl32
  | B754_finite _ _ s m e _ => binary_normalize 24 128 eq_refl eq_refl mode_NE (if s then Zneg m else Zpos m) e s
  end.
(** conversion of an int to float *)
Definition int_to_f32 (z : Z) : F32 := binary_normalize 24 128 eq_refl eq_refl mode_NE z 0 false.
(** occupancy_grid_publisher.h:29 *)
Definition info_resolution (scale : F64) : F32 := f64_to_f32 scale.
(** occupancy_grid_publisher.h:33-34: float arithmetic ([-info.resolution * origin.x]); storing it as a double is exact *)
Definition info_position (scale : F64) (o : Z) : F32 := b32_mult mode_NE (b32_opp (info_resolution scale)) (int_to_f32 o).
Definition F2R32 (x : F32) : Rdefinitions.R := B2R 24 128 x.

(** *** When the grid is published (occupancy_grid_publisher.h:20-22, 48-49).  Times are nanoseconds; [now] and [fin] are the
    clock readings at the start and at the end of a call. *)
Record publisher := mkPub { pub_last : Z; pub_interval : Z }.
Definition publish_step (p : publisher) (now fin : Z) : bool * publisher :=
  if now - pub_last p <? pub_interval p then (false, p) else (true, mkPub fin (pub_interval p)).
Fixpoint publish_run (p : publisher) (calls : list (Z * Z)) : list bool :=
  match calls with
  | [] => []
  | (now, fin) :: rest => let (b, p) := publish_step p now fin in b :: publish_run p rest
  end.
