(** Model of the text files a recorded state consists of: src/core/states/sensor_data.h:178-203 (a laser scan written
    to and read from a stream), src/ros/lslam2D_bag_runner.cpp:96-110 (the pose and scan parts of [dump_state]) and
    src/utils/sm_runner.cpp:22-34, 51-61 (reading them back).

    Simplification: a stream is its list of blank-separated words, and a numeral is its sign, its decimal digits and
    its decimal exponent instead of its characters.  The library behaviour modelled here is that of the C++ standard
    for streams with default flags: [<<] writes a double with six significant digits, correctly rounded; [>>] gives
    the double nearest to the numeral; infinities and NaN are written as words that [>>] rejects; a rejected word
    sets the variable to zero and the stream's fail bit; on a stream whose fail bit is set, and at the end of the
    stream, [>>] leaves the variable as it is.  A word of another kind than the one asked for is treated as rejected,
    which is only accurate for the words the writers below produce. *)
From Coq Require Import Reals ZArith List Bool.
From Flocq Require Import Core IEEE754.BinarySingleNaN IEEE754.Binary IEEE754.Bits.
From Verif.Base Require Import Outcome Num F64Facts.
From Verif.Model Require Import MathUtils Geometry Sensor.
Import ListNotations.
Local Open Scope outcome_scope.

Definition radix10 : radix := Build_radix 10 (refl_equal true).

(** the words of sensor_data.h:178-185 and lslam2D_bag_runner.cpp:102: a count, a flag, a numeral [±m * 10^e], and
    the words "inf", "-inf", "nan", "-nan" *)
Inductive word := WCount (n : Z) | WFlag (b : bool) | WDec (neg : bool) (m e : Z) | WNotANumber.

(** [osm << double] (default format, precision 6): six significant digits, round to nearest *)
Definition exp6 : Z -> Z := FLX_exp 6.
Definition print_double (x : F64) : word :=
  match x with
  | B754_zero _ _ s => WDec s 0 0
  | B754_finite _ _ s _ _ _ =>
      WDec s (ZnearestE (scaled_mantissa radix10 exp6 (Rabs (F2R64 x)))) (cexp radix10 exp6 (Rabs (F2R64 x)))
  | _ => WNotANumber
  end.

(** the double nearest to a non-negative real, with the given sign; an infinity when out of range *)
Definition nearest_double (neg : bool) (r : R) : F64 :=
  binary_normalize 53 1024 F_prec_gt_0 F_prec_lt_emax mode_NE
    (cond_Zopp neg (ZnearestE (scaled_mantissa radix2 fexp64 r))) (cexp radix2 fexp64 r) neg.

(** an input stream: are all its state bits clear, and the words not read yet *)
Record istream := mkIS { is_good : bool; is_rest : list word }.

(** [ism >> d] for a [double d] holding [d0]: the value left in [d] *)
Definition read_double (d0 : F64) (s : istream) : F64 * istream :=
  if is_good s then
    match is_rest s with
    | [] => (d0, mkIS false [])
    | WDec neg m e :: ws =>
        let v := nearest_double neg (F2R (Float radix10 m e)) in
        if F_fin v then (v, mkIS true ws) else (v, mkIS false ws)   (* out of range: the largest double, fail bit *)
    | _ :: ws => (dofZ 0, mkIS false ws)
    end
  else (d0, s).

(** [ism >> b] for a [bool b]; [None]: [b] was never given a value *)
Definition read_bool (b0 : option bool) (s : istream) : option bool * istream :=
  if is_good s then
    match is_rest s with
    | [] => (b0, mkIS false [])
    | WFlag b :: ws => (Some b, mkIS true ws)
    | _ :: ws => (Some true, mkIS false ws)
    end
  else (b0, s).

(** [ism >> n] for a [size_t n] *)
Definition read_count (n0 : Z) (s : istream) : Z * istream :=
  if is_good s then
    match is_rest s with
    | [] => (n0, mkIS false [])
    | WCount n :: ws => (n, mkIS true ws)
    | _ :: ws => (0%Z, mkIS false ws)
    end
  else (n0, s).

Section Text.
  Variable datan2 : F64 -> F64 -> F64.   (* std::atan2 *)
  Notation scan := (list (scan_point F64)).

  (** sensor_data.h:180-183, one point *)
  Definition write_point (p : scan_point F64) : list word :=
    [print_double (sp_range p); print_double (sp_angle datan2 p); WFlag (sp_occ p)].

  (** sensor_data.h:178-185 *)
  Definition write_scan (pts : scan) : list word :=
    WCount (Z.of_nat (length pts)) :: concat (map write_point pts).

  (** sensor_data.h:193-200: [is_occupied] has no initial value, and is used even when reading failed *)
  Fixpoint read_points (n : nat) (s : istream) : outcome (scan * istream) :=
    match n with
    | 0%nat => Ok ([], s)
    | S k =>
        let (range, s1) := read_double (dofZ 0) s in
        let (angle, s2) := read_double (dofZ 0) s1 in
        let (occ, s3) := read_bool None s2 in
        match occ with
        | None => UB
        | Some o =>
            r <- read_points k s3 ;;
            Ok (sp_make_polar range angle o :: fst r, snd r)
        end
    end.

  (** sensor_data.h:187-203 *)
  Definition read_scan (s : istream) : outcome (scan * istream) :=
    let (n, s1) := read_count 0 s in read_points (Z.to_nat n) s1.

  (** lslam2D_bag_runner.cpp:106-108, sm_runner.cpp:51-61: the scan file *)
  Definition dump_scan (pts : scan) : list word := write_scan pts.
  Definition load_scan (file : list word) : outcome scan := r <- read_scan (mkIS true file) ;; Ok (fst r).

  (** lslam2D_bag_runner.cpp:100-103: the pose file *)
  Definition dump_pose (p : pose F64) : list word :=
    [print_double (px p); print_double (py p); print_double (pth p)].

  (** sm_runner.cpp:28-30 *)
  Definition load_pose (file : list word) : pose F64 :=
    let (x, s1) := read_double (dofZ 0) (mkIS true file) in
    let (y, s2) := read_double (dofZ 0) s1 in
    let (th, _) := read_double (dofZ 0) s2 in
    mkPose x y th.
End Text.
